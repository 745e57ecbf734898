(** * RenderTree: the renderer on streams of the documented shape. *)

From Coq Require Import List NArith ZArith Bool Lia.
From Verif Require Import Base Float32 Event Tables Prim Spans DisplayFacts Mathml SpecStream SpecXml XmlFacts SpecEvent RenderFacts TableFacts.
Import ListNotations.
Open Scope N_scope.
Open Scope sm_scope.

(** ** The stacks *)

(** An error has the place of an element, like a number. *)
Definition as_event (i : ritem) : event := match i with RIEvent e => e | RIErr msg => EvContent (CNumber msg) end.

Definition env_tag (e : env) : str :=
  match e with ENGroup _ => [] | ENVisual v _ => visual_tag v | ENScript ty ab _ _ => script_tag ty ab end.
Definition env_total (e : env) : nat :=
  match e with ENGroup _ => O | ENVisual v _ => visual_arity v | ENScript ty _ _ _ => script_arity ty end.
Definition env_count (e : env) : N := match e with ENGroup _ => 0 | ENVisual _ n => n | ENScript _ _ n _ => n end.
Definition is_group (e : env) : bool := match e with ENGroup _ => true | _ => false end.
Definition groups (E : list env) : nat := length (filter is_group E).

Definition plain_env (st : option bool) (g : egroup) : bool :=
  match g with EGNormal => true | EGLeftRight d => delim_clean st d | _ => false end.

(** A table with [c] marks in this row, of [m] allowed. *)
Definition table_env (g : egroup) (c m : N) : Prop :=
  match g with
  | EGArray cols i =>
      count cols <> O /\ m = N.of_nat (count cols) - 1 /\ c <= m /\ array_pos cols (N.to_nat c) = Some i
  | EGCases used _ | EGSplit used => used = false
  | EGAlignat _ used => used <= c /\ m <= 65534
  | EGNormal | EGLeftRight _ => False
  | _ => True
  end.

Definition outer (g : egroup) (k : nat) (K : list (str * nat)) : list (str * nat) :=
  match g with EGCases _ _ => (mrow, k) :: K | _ => K end.

Section Stacks.
Variable o : ropts.
Variable root : str.
Variable base : list (str * nat).
Hypothesis Hroot : holds_formulas root = true.

(** The frames of the stream, the stack of the renderer, and the open elements.
    [b]: whether a child of the innermost element is already counted. *)
Inductive W : bool -> list frame -> list env -> list (str * nat) -> Prop :=
| W_base : forall b s k, W b [Body s None] [] ((root, k) :: base)
| W_plain : forall b s g F E K k, plain_env (strict o) g = true -> W true F E K ->
    W b (Body s None :: F) (ENGroup g :: E) ((mrow, k) :: K)
| W_table : forall b s c m g F E K k k1 k2 k3, table_env g c m -> W true F E K ->
    W b (Body s (Some (c, m)) :: F) (ENGroup g :: E) ((mtd, k) :: (mtr, k1) :: (mtable, k2) :: outer g k3 K)
| W_need : forall b n e F E K k, is_group e = false -> env_count e = N.of_nat n ->
    (arity o = true -> (k + S n = env_total e + if b : bool then 1 else 0)%nat /\ unmark e = e) ->
    W true F E K -> W b (Need (S n) :: F) (e :: E) ((env_tag e, k) :: K).

Lemma W_top : forall b F E K, W b F E K -> exists p k K', K = (p, k) :: K' /\ holds_formulas p = true.
Proof.
  intros b F E K H. destruct H; eexists _, _, _; (split; [reflexivity|]); try reflexivity; [exact Hroot|].
  destruct e as [|[]|[] []]; try discriminate; reflexivity.
Qed.

Lemma W_child : forall F E p k K, W false F E ((p, k) :: K) -> W true F E ((p, S k) :: K).
Proof.
  intros F E p k K H. inversion H; subst; try (constructor; assumption).
  constructor; auto. intro A. match goal with H : arity _ = true -> _ |- _ => destruct (H A) as [B C] end. split; [lia|exact C].
Qed.

Lemma W_any : arity o = false -> forall b b' F E p k k' K, W b F E ((p, k) :: K) -> W b' F E ((p, k') :: K).
Proof.
  intros A b b' F E p k k' K H. inversion H; subst; try (constructor; assumption).
  constructor; auto. congruence.
Qed.

Lemma W_body : forall b b' s s' r F E p k k' K, W b (Body s r :: F) E ((p, k) :: K) -> W b' (Body s' r :: F) E ((p, k') :: K).
Proof. intros b b' s s' r F E p k k' K H. inversion H; subst; constructor; assumption. Qed.

(** After formulas were written where one element may stand. *)
Lemma W_adds : forall F E p k n K, W false F E ((p, k) :: K) ->
  (arity o = true -> n = 1%nat \/ exists s r F', F = Body s r :: F') -> W true F E ((p, (n + k)%nat) :: K).
Proof.
  intros F E p k n K H Hn. destruct (arity o) eqn:A; [|eapply W_any; eauto].
  destruct (Hn eq_refl) as [->|(s & r & F' & ->)]; [now apply W_child|]. eapply W_body; eauto.
Qed.

Lemma groups_unmark : forall E E', map unmark E' = map unmark E -> groups E' = groups E.
Proof.
  intros E E' H. assert (G : forall E, groups E = groups (map unmark E)).
  { induction E0 as [|[] E0 IH0]; unfold groups in *; cbn; auto. }
  now rewrite (G E'), H, <- G.
Qed.

Lemma W_unmark : arity o = false -> forall b F E K, W b F E K -> forall E', map unmark E' = map unmark E -> W b F E' K.
Proof.
  intros A b F E K H. induction H as [b s k|b s g F E K k Hg H IH|b s c m g F E K k k1 k2 k3 Hg H IH|b n e F E K k He Hn Ha H IH]; intros [|e' E'] HE; cbn [map] in HE; try discriminate.
  - constructor.
  - injection HE as H1 H2. destruct e'; try discriminate. injection H1 as ->. constructor; auto.
  - injection HE as H1 H2. destruct e'; try discriminate. injection H1 as ->. constructor; auto.
  - injection HE as H1 H2. replace (env_tag e) with (env_tag e').
    + constructor; auto.
      * destruct e', e; try discriminate; reflexivity.
      * rewrite <- Hn. destruct e', e; try discriminate; cbn in *; congruence.
      * congruence.
    + destruct e', e; try discriminate; cbn in *; congruence.
Qed.

(** ** Closing *)

Lemma tag_facts : forall e, is_group e = false -> attr_name (env_tag e) = true.
Proof. intros [g|[] n|[] [] n fn] H; try discriminate; reflexivity. Qed.

Lemma complete_tag : forall e k, is_group e = false -> (arity o = true -> k = env_total e) -> complete o (env_tag e) k = true.
Proof.
  intros e k He Hk. unfold complete. destruct (arity o); [|reflexivity]. rewrite (Hk eq_refl).
  destruct e as [g|[] n|[] [] n fn]; try discriminate; reflexivity.
Qed.

Definition mark_of (e : env) : bool := match e with ENScript _ _ _ fn => fn | _ => false end.

(** One round of the loop that closes what is complete. *)
Lemma close_complete_zero : forall e E r, is_group e = false -> env_count e = 0 ->
  close_complete (e :: E) r =
  (do _ <- wr (close_str (env_tag e)) ; do _ <- set_previous_atom AtInner ; do _ <- modify (set_envs E) ;
   do _ <- when (mark_of e) fn_apply ; close_complete E) r.
Proof.
  intros [g|v n|ty ab n fn] E r He Hc; try discriminate; cbn [env_count] in Hc; subst n; cbn [close_complete env_tag mark_of];
    change (0 =? 0) with true; cbn iota; reflexivity.
Qed.
Definition less (e : env) : env :=
  match e with ENGroup g => ENGroup g | ENVisual v n => ENVisual v (n - 1) | ENScript ty ab n fn => ENScript ty ab (n - 1) fn end.
Lemma close_complete_more : forall e E r, is_group e = false -> env_count e <> 0 ->
  close_complete (e :: E) r = (Ok tt, set_envs (less e :: E) r).
Proof.
  intros [g|v n|ty ab n fn] E r He Hc; try discriminate; cbn [env_count] in Hc; cbn [close_complete less];
    apply N.eqb_neq in Hc; rewrite Hc; reflexivity.
Qed.

Lemma close_spec : forall E F F' K r, W true F E K -> r_envs r = E -> done F = Some F' ->
  exists r' ts K', close_complete E r = (Ok tt, r') /\ wrote (strict o) QText ts QText r r'
    /\ build o K ts = Some K' /\ W false F' (r_envs r') K' /\ kept r r' /\ groups (r_envs r') = groups E.
Proof.
  induction E as [|e E IH]; intros F F' K r HW Hr HD.
  - inversion HW; subst. cbn [done] in HD. injection HD as <-. exists r, [], ((root, k) :: base).
    split; [reflexivity|]. split; [now apply wrote_refl|]. split; [reflexivity|]. split; [rewrite Hr; constructor|]. split; [apply kept_refl|now rewrite Hr].
  - inversion HW; subst.
    + cbn [done] in HD. injection HD as <-. exists r, [], ((mrow, k) :: K0).
      split; [reflexivity|]. split; [now apply wrote_refl|]. split; [reflexivity|]. split; [rewrite Hr; now constructor|]. split; [apply kept_refl|now rewrite Hr].
    + cbn [done] in HD. injection HD as <-. eexists r, [], _.
      split; [reflexivity|]. split; [now apply wrote_refl|]. split; [reflexivity|]. split; [rewrite Hr; now constructor|]. split; [apply kept_refl|now rewrite Hr].
    + destruct n as [|n]; cbn [done] in HD.
      * (* complete *)
        rewrite close_complete_zero by assumption. unfold bind at 1. unfold wr at 1. unfold modify at 1.
        unfold bind at 1. rewrite prev_atom_eq. unfold bind at 1. unfold modify at 1.
        match goal with |- context [bind (when _ _) _ ?q] => set (r1 := q) end.
        assert (W1 : wrote (strict o) QText [XC (env_tag e)] QText r r1).
        { exists (close_str (env_tag e)). split; [reflexivity|]. apply reads_close. now apply tag_facts. }
        assert (B1 : build o ((env_tag e, k) :: K0) [XC (env_tag e)] = Some K0).
        { cbn [build]. rewrite str_eqb_refl. rewrite complete_tag; [reflexivity|assumption|]. intro A.
          match goal with H : arity _ = true -> _ |- _ => destruct (H A) as [B C] end. lia. }
        assert (A2 : exists r2 t2 K2, when (mark_of e) fn_apply r1 = (Ok tt, r2) /\ wrote (strict o) QText t2 QText r1 r2 /\
                 build o K0 t2 = Some K2 /\ W true F0 E K2 /\ kept r1 r2 /\ r_envs r2 = E).
        { destruct (mark_of e) eqn:Em.
          - assert (A : arity o = false).
            { destruct (arity o) eqn:A; [|reflexivity]. match goal with H : true = true -> _ |- _ => destruct (H eq_refl) as [B C] end.
              destruct e as [| |ty ab n fn]; try discriminate. cbn in Em, C. congruence. }
            destruct (fn_apply_spec o r1) as (r2 & t2 & k2 & F1 & F2 & F3 & F4 & F5 & F6).
            destruct (W_top _ _ _ _ H7) as (p & j & K' & -> & Hp). exists r2, t2, ((p, (k2 + j)%nat) :: K').
            split; [exact F1|]. split; [exact F2|]. split; [now apply F3|]. split; [eapply W_any; eauto|]. split; [exact F4|]. rewrite F5. reflexivity.
          - exists r1, [], K0. split; [reflexivity|]. split; [now apply wrote_refl|]. split; [reflexivity|]. split; [assumption|]. split; [apply kept_refl|reflexivity]. }
        destruct A2 as (r2 & t2 & K2 & E2 & W2 & B2 & HW2 & Kp2 & En2).
        unfold bind at 1. rewrite E2. destruct (IH F0 F' K2 r2 HW2 En2 HD) as (r3 & t3 & K3 & E3 & W3 & B3 & HW3 & Kp3 & G3).
        exists r3, ([XC (env_tag e)] ++ t2 ++ t3)%list, K3. split; [exact E3|].
        split; [exact (wrote_trans _ _ _ _ _ _ _ _ _ W1 (wrote_trans _ _ _ _ _ _ _ _ _ W2 W3))|].
        split; [now rewrite build_app, B1, build_app, B2|]. split; [exact HW3|].
        split; [eapply kept_trans; [|eapply kept_trans; [exact Kp2|exact Kp3]]; split; reflexivity|].
        rewrite G3. unfold groups. cbn [filter]. match goal with H : is_group e = false |- _ => now rewrite H end.
      * injection HD as <-. rewrite close_complete_more; [|assumption|].
        2:{ match goal with H : env_count e = _ |- _ => rewrite H end. lia. }
        eexists _, [], _. split; [reflexivity|]. split; [now apply wrote_refl|]. split; [reflexivity|].
        split; [|split; [split; reflexivity|]].
        -- cbn [r_envs set_envs]. replace (env_tag e) with (env_tag (less e)) by (destruct e; reflexivity).
           constructor; try assumption.
           ++ destruct e; assumption.
           ++ match goal with H : env_count e = _ |- _ => destruct e; cbn [env_count less] in H |- *; try discriminate; rewrite H end; lia.
           ++ intro A. match goal with H : arity _ = true -> _ |- _ => destruct (H A) as [B C] end.
              split; [destruct e; cbn [env_total less] in *; lia|]. destruct e; try reflexivity. cbn in C |- *. congruence.
        -- cbn [r_envs set_envs]. unfold groups. cbn [filter]. destruct e; reflexivity.
Qed.

(** ** One event *)

Variable cfg : render_config.

(** What is left of the stream fits the frames. *)
Definition rest (F : list frame) (is : list ritem) : Prop := let es := map as_event is in
  (exists b, feeds F es = Some [Body b None]) /\ Forall (fine (strict o)) es
  /\ (arity o = true -> steady F es = true).
Definition holds (r : rst) (es : list ritem) : Prop :=
  length (r_states r) = S (groups (r_envs r)) /\ stream (r_in r) = es.
Definition Sim (F : list frame) (K : list (str * nat)) (r : rst) (es : list ritem) : Prop :=
  W false F (r_envs r) K /\ holds r es /\ rest F es.

(** [m] goes on to a state that fits again. *)
Definition stepped (K : list (str * nat)) (r : rst) (es : list ritem) (m : R unit) : Prop :=
  exists r' ts K' F' es', m r = (Ok tt, r') /\ wrote (strict o) QText ts QText r r'
    /\ build o K ts = Some K' /\ Sim F' K' r' es' /\ (length es' <= length es)%nat.

Lemma rest_next : forall F i es, rest F (i :: es) -> let e := as_event i in
  exists F', feed F e = Some F' /\ rest F' es /\ fine (strict o) e /\ (arity o = true -> steady1 F e = true).
Proof.
  intros F i es ((b & H1) & H2 & H3) e. cbn [map] in H1, H2, H3. fold e in H1, H2, H3. cbn [feeds] in H1. destruct (feed F e) as [F'|] eqn:E; [|discriminate].
  exists F'. split; [reflexivity|]. inversion H2; subst. split; [|split; [assumption|]].
  - split; [eauto|]. split; [assumption|]. intro A. specialize (H3 A). cbn [steady] in H3. rewrite E in H3.
    now apply andb_prop in H3.
  - intro A. specialize (H3 A). cbn [steady] in H3. now apply andb_prop in H3.
Qed.

(** The element is written; then what is complete is closed. *)
Lemma finish : forall F F' K K1 r r1 es es' ts i,
  write_event cfg i r = (Ok tt, r1) -> wrote (strict o) QText ts QText r r1 -> build o K ts = Some K1 ->
  W true F (r_envs r1) K1 -> done F = Some F' -> holds r1 es' -> rest F' es' -> (length es' <= length es)%nat ->
  stepped K r es (render_item cfg i).
Proof.
  intros F F' K K1 r r1 es es' ts i E1 W1 B1 HW HD [H1 H2] HR HL. unfold stepped, render_item.
  unfold bind at 1. rewrite E1. unfold bind at 1. unfold get at 1.
  destruct (close_spec _ _ _ _ r1 HW eq_refl HD) as (r2 & t2 & K2 & E2 & W2 & B2 & HW2 & [Kp1 Kp2] & G2).
  exists r2, (ts ++ t2)%list, K2, F', es'. split; [exact E2|]. split; [eapply wrote_trans; eassumption|].
  split; [now rewrite build_app, B1|]. split; [|exact HL]. split; [exact HW2|]. split; [|exact HR].
  split; [rewrite Kp1, G2; exact H1|rewrite Kp2; exact H2].
Qed.

(** An event after which nothing can be complete. *)
Lemma finish_open : forall F' K K1 r r1 es es' ts i,
  write_event cfg i r = (Ok tt, r1) -> wrote (strict o) QText ts QText r r1 -> build o K ts = Some K1 ->
  close_complete (r_envs r1) r1 = (Ok tt, r1) ->
  W false F' (r_envs r1) K1 -> holds r1 es' -> rest F' es' -> (length es' <= length es)%nat ->
  stepped K r es (render_item cfg i).
Proof.
  intros F' K K1 r r1 es es' ts i E1 W1 B1 HC HW HH HR HL. unfold stepped, render_item.
  unfold bind at 1. rewrite E1. unfold bind at 1. unfold get at 1.
  exists r1, ts, K1, F', es'. repeat (split; [assumption|]). split; [|exact HL]. repeat (split; [assumption|]). assumption.
Qed.

Lemma open_done : forall F f F', open F f = Some F' -> F' = f :: F /\ exists F1, done F = Some F1.
Proof. intros F f F' H. unfold open in H. destruct (done F) as [F1|]; [|discriminate]. injection H as <-. eauto. Qed.

(** Content. *)
Lemma step_content : forall F K r es c, W false F (r_envs r) K -> holds r es -> rest F (RIEvent (EvContent c) :: es) ->
  stepped K r es (render_item cfg (RIEvent (EvContent c))).
Proof.
  intros F K r es c HW [H1 H2] HR. destruct (rest_next _ _ _ HR) as (F' & Ef & HR' & [Hv Hc] & Hst). cbn [feed as_event] in Ef.
  destruct (r_states r) as [|s l] eqn:Es; [discriminate|].
  destruct (write_content_spec o cfg c false r s l Es Hv Hc) as (r1 & ts & k & E1 & W1 & A1 & [Kp1 Kp2] & U1 & Fn & En).
  destruct (W_top _ _ _ _ HW) as (p & j & K' & -> & Hp).
  eapply finish with (F := F) (ts := ts); [exact E1|exact W1|apply A1; exact Hp| |exact Ef| |exact HR'|apply le_n].
  - destruct (arity o) eqn:A.
    + assert (Hf : is_function c = false \/ exists s r F', F = Body s r :: F').
      { specialize (Hst eq_refl). destruct F as [|[s0 r0|n] F0]; [inversion HW| eauto|].
        left. cbn in Hst. destruct c; try reflexivity. discriminate. }
      destruct Hf as [Hf|(s0 & r0 & F0 & ->)].
      * rewrite (Fn Hf), (En (or_introl Hf)). now apply W_child.
      * rewrite En; [eapply W_body; exact HW|]. right. inversion HW; reflexivity.
    + eapply W_unmark; [exact A| |exact U1]. eapply W_any; [exact A|exact HW].
  - split; [rewrite Kp1, Es; rewrite (groups_unmark _ _ U1); exact H1|now rewrite Kp2].
Qed.

Lemma close_body : forall b s x F E K r, W b (Body s x :: F) E K -> close_complete E r = (Ok tt, r).
Proof. intros b s x F E K r H. inversion H; reflexivity. Qed.

(** Space. *)
Lemma space_atts : forall n m atts a d, in_open m n atts -> attr_name a = true -> fresh a atts = true -> dim_ok d ->
  exists m' atts', reads (strict o) m (match d with Some d => attr a (dim_display d) | None => [] end) [] m'
    /\ in_open m' n atts' /\ (forall b, fresh b atts = true -> str_eqb b a = false -> fresh b atts' = true).
Proof.
  intros n m atts a d Hm Ha Hf Hd. destruct d as [d|].
  - eexists _, _. split; [apply (reads_attr (strict o) m n atts a (dim_display d) Hm Ha Hf (dim_val d Hd))|].
    split; [apply in_open_tag|]. intros b Hb Hab. rewrite fresh_app, Hb. unfold fresh. cbn. now rewrite Hab.
  - exists m, atts. split; [apply reads_nil|]. auto.
Qed.

Lemma space_reads : forall w h d, strict o = None \/ w <> None -> dim_ok w -> dim_ok h -> dim_ok d ->
  exists atts, reads (strict o) QText (space_str w h d) [XE (lit "mspace") atts] QText.
Proof.
  intros [w|] h d Hw Dw Dh Dd; [clear Hw|exists []; destruct Hw as [Hw|Hw]; [rewrite Hw; exact Logic.I|congruence]]. unfold space_str.
  assert (A0 : exists m atts, reads (strict o) QText (lit "<mspace" ++ attr (lit "width") (dim_display w) ++
        (if f32_negative (dvalue w) then attr (lit "style") (lit "margin-left: " ++ dim_display w) else [])) [] m
        /\ in_open m (lit "mspace") atts /\ fresh (lit "height") atts = true /\ fresh (lit "depth") atts = true).
  { set (m1 := QTag (lit "mspace") ([] ++ [(lit "width", dim_display w)]) false).
    assert (R1 : reads (strict o) (QOpen (lit "mspace")) (attr (lit "width") (dim_display w)) [] m1).
    { apply (reads_attr (strict o) (QOpen (lit "mspace")) (lit "mspace") [] (lit "width") _); try reflexivity; [now left|now apply dim_val]. }
    destruct (f32_negative (dvalue w)).
    - eexists _, _. split.
      + eapply reads_cat with (t1 := []) (m1 := QOpen (lit "mspace")); [lexlit (strict o)| |reflexivity].
        eapply reads_cat with (t1 := []); [exact R1| |reflexivity].
        apply (reads_attr (strict o) m1 (lit "mspace") [(lit "width", dim_display w)] (lit "style") (lit "margin-left: " ++ dim_display w)%list); try reflexivity; [apply in_open_tag|].
        rewrite val_ok_app, dim_val by exact Dw. reflexivity.
      + split; [apply in_open_tag|]. split; reflexivity.
    - exists m1, [(lit "width", dim_display w)]. split; [|split; [apply in_open_tag|split; reflexivity]].
      eapply reads_cat with (t1 := []) (m1 := QOpen (lit "mspace")); [lexlit (strict o)| |reflexivity].
      rewrite app_nil_r. exact R1. }
  destruct A0 as (m & atts & R0 & O0 & F1 & F2).
  destruct (space_atts (lit "mspace") m atts (lit "height") h O0 eq_refl F1 Dh) as (m1 & a1 & R1 & O1 & N1).
  destruct (space_atts (lit "mspace") m1 a1 (lit "depth") d O1 eq_refl (N1 _ F2 eq_refl) Dd) as (m2 & a2 & R2 & O2 & N2).
  exists a2. eapply reads_cat with (t1 := []); [exact R0| |reflexivity]. eapply reads_cat with (t1 := []); [exact R1| |reflexivity].
  eapply reads_cat with (t1 := []); [exact R2| |reflexivity].
  destruct O2 as [[-> ->]|[b ->]]; lexlit (strict o).
Qed.

Lemma step_space : forall F K r es w h d, W false F (r_envs r) K -> holds r es -> rest F (RIEvent (EvSpace w h d) :: es) ->
  stepped K r es (render_item cfg (RIEvent (EvSpace w h d))).
Proof.
  intros F K r es w h d HW [H1 H2] HR. destruct (rest_next _ _ _ HR) as (F' & Ef & HR' & (Hw & Dw & Dh & Dd) & Hst). cbn [feed as_event] in Ef.
  destruct (space_reads w h d Hw Dw Dh Dd) as (atts & R).
  destruct (W_top _ _ _ _ HW) as (p & j & K' & -> & Hp).
  eapply finish with (F := F) (ts := [XE (lit "mspace") atts]); [reflexivity|exists (space_str w h d); split; [reflexivity|exact R]| | |exact Ef| |exact HR'|apply le_n].
  - apply (adds_empty o (lit "mspace") atts eq_refl p j K' Hp).
  - now apply W_child.
  - split; [exact H1|exact H2].
Qed.

Lemma step_state : forall F K r es c, W false F (r_envs r) K -> holds r es -> rest F (RIEvent (EvState c) :: es) ->
  stepped K r es (render_item cfg (RIEvent (EvState c))).
Proof.
  intros F K r es c HW [H1 H2] HR. destruct (rest_next _ _ _ HR) as (F' & Ef & HR' & _ & Hst). cbn [feed as_event] in Ef.
  destruct (r_states r) as [|s l] eqn:Es; [discriminate|].
  set (r1 := set_states (apply_change c s :: l) r).
  assert (E1 : write_event cfg (RIEvent (EvState c)) r = (Ok tt, r1)).
  { cbn [write_event]. unfold handle_state_change, mod_state. now rewrite Es. }
  destruct F as [|[s0 x|n] F0]; [inversion HW| |].
  - injection Ef as <-. eapply finish_open with (ts := []); [exact E1|now apply wrote_refl|reflexivity| |exact HW| |exact HR'|apply le_n].
    + eapply close_body. exact HW.
    + split; [cbn; exact H1|exact H2].
  - assert (A : arity o = false) by (destruct (arity o); [discriminate (Hst eq_refl)|reflexivity]).
    eapply finish with (ts := []); [exact E1|now apply wrote_refl|reflexivity| |exact Ef| |exact HR'|apply le_n].
    + destruct (W_top _ _ _ _ HW) as (p & j & K' & -> & Hp). eapply W_any; [exact A|exact HW].
    + split; [cbn; exact H1|exact H2].
Qed.

(** Scripts and visuals: the element is opened. *)
Lemma step_element : forall F K r es i F' f e ex atts, W false F (r_envs r) K -> holds r es ->
  done F = Some F' -> f = Need (env_total e) -> rest (f :: F) es ->
  is_group e = false -> env_count e = N.of_nat (env_total e) -> unmark e = e ->
  (exists s l envs c, r_states r = s :: l /\ write_event cfg i r = (Ok tt, set_envs (e :: r_envs r) (set_out (r_out r ++ open_str envs s (env_tag e) c ++ ex ++ lit ">") r))
    /\ match c with Some v => val_ok v = true | None => True end
    /\ (forall m, in_open m (env_tag e) (open_atts envs s c) -> exists m', reads (strict o) m ex [] m' /\ in_open m' (env_tag e) atts)) ->
  stepped K r es (render_item cfg i).
Proof.
  intros F K r es i F' f e ex atts HW [H1 H2] HD -> HR He Hc Hu (s & l & envs & c & Es & E1 & Hcl & Hx).
  set (r1 := set_envs (e :: r_envs r) (set_out (r_out r ++ open_str envs s (env_tag e) c ++ ex ++ lit ">") r)) in *.
  destruct (W_top _ _ _ _ HW) as (p & j & K' & -> & Hp).
  assert (Wr : wrote (strict o) QText [XO (env_tag e) atts] QText r r1).
  { exists (open_str envs s (env_tag e) c ++ ex ++ lit ">")%list. split; [reflexivity|].
    destruct (reads_open (strict o) envs s (env_tag e) c (tag_facts e He) Hcl) as (m1 & R1 & O1). destruct (Hx m1 O1) as (m2 & R2 & O2).
    eapply reads_cat with (t1 := []); [exact R1| |reflexivity]. eapply reads_cat with (t1 := []); [exact R2|apply reads_gt; exact O2|reflexivity]. }
  assert (B : build o ((p, j) :: K') [XO (env_tag e) atts] = Some ((env_tag e, O) :: (p, S j) :: K')).
  { cbn [build]. rewrite fits_formula; [reflexivity|exact Hp|]. destruct e as [g|[] n|[] [] n fn]; try discriminate; reflexivity. }
  assert (Ht : exists n, env_total e = S n) by (destruct e as [g|[] n|[] ab n fn]; try discriminate; cbn; eauto).
  destruct Ht as (n & Hn).
  unfold stepped, render_item. unfold bind at 1. rewrite E1. unfold bind at 1. unfold get at 1. cbn [r_envs r1 set_envs].
  change (r_envs r1) with (e :: r_envs r). rewrite close_complete_more; [|exact He|rewrite Hc, Hn; lia].
  exists (set_envs (less e :: r_envs r) r1), [XO (env_tag e) atts], ((env_tag e, O) :: (p, S j) :: K'), (Need (env_total e) :: F), es.
  split; [reflexivity|]. split; [exact Wr|]. split; [exact B|]. split; [|apply le_n]. split; [|split; [|exact HR]].
  - rewrite Hn. cbn [r_envs set_envs]. replace (env_tag e) with (env_tag (less e)) by (destruct e; reflexivity). constructor.
    + destruct e; assumption.
    + destruct e; cbn [env_count less env_total] in *; try discriminate; rewrite Hc, Hn; lia.
    + intros _. split; [destruct e; cbn [less env_total] in *; rewrite ?Hn; try discriminate; lia|].
      destruct e; try reflexivity. cbn in Hu |- *. congruence.
    + now apply W_child.
  - split; [|exact H2]. cbn [r_states set_envs set_out r_envs r1]. rewrite H1. unfold groups. cbn [filter]. destruct e; try discriminate; reflexivity.
Qed.

Lemma step_script : forall F K r es ty pos, W false F (r_envs r) K -> holds r es -> rest F (RIEvent (EvScript ty pos) :: es) ->
  stepped K r es (render_item cfg (RIEvent (EvScript ty pos))).
Proof.
  intros F K r es ty pos HW HH HR. destruct (rest_next _ _ _ HR) as (F' & Ef & HR' & _ & Hst). cbn [feed as_event] in Ef.
  destruct (open_done _ _ _ Ef) as (-> & F1 & HD).
  destruct (r_states r) as [|s l] eqn:Es; [destruct HH as [H1 _]; rewrite Es in H1; discriminate|].
  eapply step_element with (e := env_of_script ty (above_below cfg s pos)) (ex := []);
    [exact HW|exact HH|exact HD|reflexivity|destruct ty; exact HR'|reflexivity|destruct ty; reflexivity|reflexivity|].
  exists s, l, (env_of_script ty (above_below cfg s pos) :: r_envs r), None. split; [exact Es|]. split; [|split; [exact Logic.I|exact (no_extra _ _ _)]].
  cbn [write_event]. unfold bind at 1. unfold state at 1. rewrite Es. unfold bind at 1. unfold push_env at 1. unfold modify at 1.
  unfold bind at 1. rewrite (open_tag_spec _ _ _ s l); [|exact Es]. unfold wr, modify. fields.
  rewrite <- app_assoc. destruct r; cbn in *. subst. reflexivity.
Qed.

Lemma in_first_spec : forall r, exists m', in_first r = (Ok (nth_error (stream (r_in r)) 0), set_in m' r) /\ stream m' = stream (r_in r).
Proof.
  intro r. unfold in_first. pose proof (peek_first_stream ritem (r_in r)) as P. destruct (mp_peek_first (r_in r)) as [x m'].
  destruct P as [-> P]. eauto.
Qed.
Lemma in_next_spec : forall r i l, stream (r_in r) = i :: l -> exists m', in_next r = (Ok (Some i), set_in m' r) /\ stream m' = l.
Proof.
  intros r i l H. unfold in_next. pose proof (next_stream ritem (r_in r)) as P. destruct (mp_next (r_in r)) as [[x|] m'].
  - rewrite H in P. injection P as -> ->. eauto.
  - destruct P as [_ P]. congruence.
Qed.

Lemma step_visual_plain : forall F K r es v, v <> VNegation ->
  W false F (r_envs r) K -> holds r es -> rest F (RIEvent (EvVisual v) :: es) ->
  stepped K r es (render_item cfg (RIEvent (EvVisual v))).
Proof.
  intros F K r es v Hv HW HH HR. destruct (rest_next _ _ _ HR) as (F' & Ef & HR' & Hfine & Hst). cbn [feed as_event] in Ef.
  destruct (open_done _ _ _ Ef) as (-> & F1 & HD).
  destruct (r_states r) as [|s l] eqn:Es; [destruct HH as [H1 _]; rewrite Es in H1; discriminate|].
  set (ex := match v with VFraction (Some d) => attr (lit "linethickness") (dim_display d) | _ => [] end).
  eapply step_element with (e := env_of_visual v) (ex := ex)
    (atts := (open_atts (env_of_visual v :: r_envs r) s None ++ match v with VFraction (Some d) => [(lit "linethickness", dim_display d)] | _ => [] end)%list);
    [exact HW|exact HH|exact HD|reflexivity|destruct v; exact HR'|reflexivity|destruct v; reflexivity|reflexivity|].
  exists s, l, (env_of_visual v :: r_envs r), None. split; [exact Es|]. split; [|split; [exact Logic.I|]].
  - cbn [write_event]. unfold write_visual.
    transitivity ((do _ <- push_env (env_of_visual v) ; do _ <- open_tag (visual_tag v) None ; do _ <- wr ex ; wr (lit ">")) r).
    + destruct v as [| |[d|]|]; try reflexivity; try congruence;
      unfold ex, bind, push_env, wr, ret, modify; rewrite (open_tag_spec _ _ _ s l) by exact Es;
      fields; rewrite ?app_nil_r; reflexivity.
    + unfold bind at 1. unfold push_env at 1. unfold modify at 1.
      unfold bind at 1. rewrite (open_tag_spec _ _ _ s l); [|exact Es]. unfold wr, modify, bind. fields.
      rewrite <- !app_assoc. destruct r; cbn in *. subst. reflexivity.
  - intros m Hm. unfold ex. cbn [env_tag env_of_visual] in *. destruct v as [| |[d|]|]; try (rewrite app_nil_r; now apply no_extra).
    apply one_extra; [exact Hm|reflexivity|reflexivity|]. now apply dim_val.
Qed.

Lemma step_negation : forall F K r es,
  W false F (r_envs r) K -> holds r es -> rest F (RIEvent (EvVisual VNegation) :: es) ->
  stepped K r es (render_item cfg (RIEvent (EvVisual VNegation))).
Proof.
  intros F K r es HW HH HR. destruct (rest_next _ _ _ HR) as (F' & Ef & HR' & _ & _). cbn [feed as_event] in Ef.
  destruct (open_done _ _ _ Ef) as (-> & F1 & HD).
  destruct (r_states r) as [|s l] eqn:Es; [destruct HH as [H1 _]; rewrite Es in H1; discriminate|].
  destruct (in_first_spec r) as (m' & E0 & Em).
  set (r0 := set_in m' r) in *.
  set (opened := set_envs (env_of_visual VNegation :: r_envs r) (set_out (r_out r0 ++ open_str (r_envs r) s mrow (Some (lit "mop-negated")) ++ lit ">") r0)).
  assert (HH0 : holds r0 es) by (destruct HH; split; [assumption|cbn; congruence]).
  assert (Hopen : write_event cfg (RIEvent (EvVisual VNegation)) r = (Ok tt, opened) -> stepped K r es (render_item cfg (RIEvent (EvVisual VNegation)))).
  { intro E1.
    destruct (W_top _ _ _ _ HW) as (p & j & K' & -> & Hp).
    set (atts := open_atts (r_envs r) s (Some (lit "mop-negated"))).
    assert (B : build o ((p, j) :: K') [XO mrow atts] = Some ((mrow, O) :: (p, S j) :: K')).
    { cbn [build]. rewrite fits_formula; [reflexivity|exact Hp|reflexivity]. }
    unfold stepped, render_item. unfold bind at 1. rewrite E1. unfold bind at 1. unfold get at 1.
    change (r_envs opened) with (ENVisual VNegation 1 :: r_envs r). rewrite close_complete_more; [|reflexivity|discriminate].
    exists (set_envs (ENVisual VNegation 0 :: r_envs r) opened), [XO mrow atts], ((mrow, O) :: (p, S j) :: K'), (Need 1 :: F), es.
    split; [reflexivity|]. split; [|split; [exact B|split; [|apply le_n]]].
    - exists (open_str (r_envs r) s mrow (Some (lit "mop-negated")) ++ lit ">")%list. split; [reflexivity|].
      destruct (reads_open (strict o) (r_envs r) s mrow (Some (lit "mop-negated")) eq_refl eq_refl) as (m1 & R1 & O1).
      eapply reads_cat with (t1 := []); [exact R1|apply reads_gt; exact O1|reflexivity].
    - split; [|split; [|exact HR']].
      + cbn [r_envs set_envs]. apply (W_need false 0 (ENVisual VNegation 0)); [reflexivity|reflexivity|intros _; split; reflexivity|now apply W_child].
      + destruct HH0 as [H1 H2]. split; [|exact H2]. exact H1. }
  assert (Eo : (do _ <- open_tag (lit "mrow") (Some (lit "mop-negated")) ; do _ <- wr (lit ">") ; push_env (env_of_visual VNegation)) r0 = (Ok tt, opened)).
  { unfold bind at 1. rewrite (open_tag_spec _ _ r0 s l); [|exact Es]. unfold bind, wr, push_env, modify. fields. unfold opened.
    rewrite <- app_assoc. reflexivity. }
  cbn [write_event] in Hopen. unfold write_visual in Hopen. unfold bind in Hopen at 1. rewrite E0 in Hopen.
  destruct HH as [H1 H2]. rewrite H2 in Hopen, Em.
  destruct es as [|[e|msg] es]; [exact (Hopen Eo)| |exact (Hopen Eo)]. cbn [map nth_error] in Hopen. destruct e as [c| | | | | | |]; try exact (Hopen Eo).
  destruct (negatable c) eqn:En; [|exact (Hopen Eo)]. clear Hopen Eo.
  destruct (rest_next _ _ _ HR') as (F2 & Ef2 & HR2 & [Hv Hc] & Hst2). cbn [feed done] in Ef2.
  destruct (write_content_spec o cfg c true r0 s l Es Hv Hc) as (r1 & ts & k & E1 & W1 & A1 & [Kp1 Kp2] & U1 & Fn & Fe).
  assert (Hf : is_function c = false) by (destruct c; try reflexivity; discriminate).
  destruct (in_next_spec r1 (RIEvent (EvContent c)) es) as (m2 & E2 & Em2); [rewrite Kp2; cbn [r_in r0 set_in]; exact Em|].
  destruct (W_top _ _ _ _ HW) as (p & j & K' & -> & Hp).
  eapply finish with (F := F) (F' := F2) (ts := ts) (es' := es); [| |apply A1; exact Hp| |exact Ef2| |exact HR2|cbn; lia].
  - cbn [write_event]. unfold write_visual. unfold bind at 1. rewrite E0. rewrite H2. cbn [map nth_error]. rewrite En.
    unfold bind at 1. rewrite E1. unfold bind at 1. rewrite E2. reflexivity.
  - destruct W1 as (s1 & S1 & S2). exists s1. split; [exact S1|exact S2].
  - cbn [r_envs set_in]. rewrite (Fn Hf), (Fe (or_introl Hf)). now apply W_child.
  - split; [cbn [r_states r_envs set_in]; rewrite Kp1, (Fe (or_introl Hf)); exact H1|exact Em2].
Qed.

(** ** Groups *)

(** The states and the stack are unchanged, the items change from [es] to [es']. *)
Definition moved (r r' : rst) (es es' : list ritem) : Prop :=
  r_states r' = r_states r /\ r_envs r' = r_envs r /\ stream (r_in r') = es' /\ (length es' <= length es)%nat.

Lemma rest_lines : forall c m F l es, rest (Body true (Some (c, m)) :: F) (RIEvent (EvFlow (EFStartLines l)) :: es) ->
  rest (Body false (Some (c, m)) :: F) es.
Proof. intros c m F l es H. destruct (rest_next _ _ _ H) as (F' & Ef & HR & _). cbn [feed as_event] in Ef. injection Ef as <-. exact HR. Qed.

Lemma start_lines_spec : forall r es, stream (r_in r) = es -> exists r' ts m atts es' b,
  start_lines r = (Ok tt, r') /\ wrote (strict o) (QOpen mtr) ts m r r' /\ in_open m mtr atts /\ rows o ts
  /\ moved r r' es es' /\ (forall c m F, rest (Body true (Some (c, m)) :: F) es -> rest (Body b (Some (c, m)) :: F) es').
Proof.
  intros r es He. unfold start_lines. unfold bind at 1. destruct (in_first_spec r) as (m' & -> & Em). rewrite He in Em |- *.
  assert (Hno : exists r' ts m atts es' b, (Ok tt, set_in m' r) = (@Ok unit tt, r') /\ wrote (strict o) (QOpen mtr) ts m r r' /\ in_open m mtr atts /\ rows o ts
    /\ moved r r' es es' /\ (forall c m F, rest (Body true (Some (c, m)) :: F) es -> rest (Body b (Some (c, m)) :: F) es')).
  { exists (set_in m' r), [], (QOpen mtr), [], es, true. split; [reflexivity|]. split; [now apply wrote_refl|].
    split; [now left|]. split; [apply rows_nil|]. split; [repeat split; auto|auto]. }
  destruct es as [|[e|msg] es]; [exact Hno| |exact Hno]. cbn [map nth_error]. destruct e as [| | | | | | |[|sp hl|lines]]; try exact Hno. clear Hno.
  destruct (hlines_spec o lines) as (ts & m & atts & R & O & Hr).
  unfold bind at 1. unfold wr, modify.
  match goal with |- context [bind in_next _ ?q] => set (r1 := q) end.
  destruct (in_next_spec r1 (RIEvent (EvFlow (EFStartLines lines))) es) as (m2 & E2 & Em2); [exact Em|].
  unfold bind at 1. rewrite E2. exists (set_in m2 r1), ts, m, atts, es, false. split; [reflexivity|].
  split; [exists (env_horizontal_lines lines); split; [reflexivity|exact R]|]. split; [exact O|]. split; [exact Hr|].
  split; [repeat split; auto; cbn; lia|]. intros c0 m0 F. apply rest_lines.
Qed.

(** Tags that enter the first cell of a new row. *)
Definition enters (ts : list xtag) : Prop := forall k K, exists k1 k2,
  build o ((mtable, k) :: K) ts = Some ((mtd, O) :: (mtr, k1) :: (mtable, k2) :: K).

Lemma enters_row : forall t1 atts t2, rows o t1 -> to_cell o t2 -> enters (t1 ++ XO mtr atts :: t2).
Proof.
  intros t1 atts t2 Hr Hc k K. destruct (Hr k K) as (k' & E). destruct (Hc O ((mtable, S k') :: K)) as (k1 & E1).
  exists k1, (S k'). rewrite build_app, E. exact E1.
Qed.

Lemma open_cell_spec : forall r es, stream (r_in r) = es -> exists r' ts es' b,
  open_cell r = (Ok tt, r') /\ wrote (strict o) (QOpen mtr) ts QText r r' /\ enters ts
  /\ moved r r' es es' /\ (forall c m F, rest (Body true (Some (c, m)) :: F) es -> rest (Body b (Some (c, m)) :: F) es').
Proof.
  intros r es He. destruct (start_lines_spec r es He) as (r1 & ts & m & atts & es' & b & E & Hw & O & Hr & Hm & Hrest).
  unfold open_cell. unfold bind at 1. rewrite E. unfold wr, modify.
  eexists _, (ts ++ XO mtr atts :: [XO mtd []])%list, es', b. split; [reflexivity|]. split; [|split; [|split; [exact Hm|exact Hrest]]].
  - eapply wrote_trans; [exact Hw|]. exists (lit "><mtd>"). split; [reflexivity|].
    change (lit "><mtd>") with (lit ">" ++ lit "<mtd>")%list.
    eapply reads_cat with (t1 := [XO mtr atts]); [apply reads_gt; exact O| |reflexivity]. lexlit (strict o).
  - apply enters_row; [exact Hr|apply to_cell_one].
Qed.

(** The beginning of a table: what is before [open_cell]. *)
Lemma open_table : forall pre eg c0 m0 (r : rst) es pts, stream (r_in r) = es ->
  reads (strict o) QText pre pts (QOpen mtr) ->
  (forall p k K, holds_formulas p = true -> exists k3, build o ((p, k) :: K) pts = Some ((mtable, O) :: outer eg k3 ((p, S k) :: K))) ->
  table_env eg c0 m0 ->
  exists r' ts es' b,
    (do _ <- wr pre ; do _ <- open_cell ; ret eg) r = (Ok eg, r') /\ wrote (strict o) QText ts QText r r'
    /\ (forall p k K, holds_formulas p = true -> exists k1 k2 k3,
          build o ((p, k) :: K) ts = Some ((mtd, O) :: (mtr, k1) :: (mtable, k2) :: outer eg k3 ((p, S k) :: K)))
    /\ moved r r' es es' /\ (forall c m F, rest (Body true (Some (c, m)) :: F) es -> rest (Body b (Some (c, m)) :: F) es').
Proof.
  intros pre eg c0 m0 r es pts He Hpre Hb Ht.
  destruct (open_cell_spec (set_out (r_out r ++ pre) r) es He) as (r' & ts & es' & b & E & Hw & Hen & Hm & Hrest).
  unfold bind at 1. unfold wr, modify. unfold bind at 1. rewrite E.
  exists r', (pts ++ ts)%list, es', b. split; [reflexivity|]. split; [|split; [|split; [exact Hm|exact Hrest]]].
  - refine (wrote_trans _ _ _ _ _ _ _ _ _ _ Hw). exists pre. split; [reflexivity|exact Hpre].
  - intros p k K Hp. destruct (Hb p k K Hp) as (k3 & E3).
    destruct (Hen O (outer eg k3 ((p, S k) :: K))) as (k1 & k2 & E2). exists k1, k2, k3. now rewrite build_app, E3.
Qed.


Lemma table_pre : forall atts p k K, holds_formulas p = true ->
  build o ((p, k) :: K) [XO mtable atts] = Some ((mtable, O) :: (p, S k) :: K).
Proof. intros atts p k K Hp. cbn [build]. rewrite fits_formula; [reflexivity|exact Hp|reflexivity]. Qed.

Lemma open_group_spec : forall g m r es, marks g = Some m -> fine (strict o) (EvBegin g) ->
  stream (r_in r) = es -> exists eg r' ts es' b,
    open_group g r = (Ok eg, r') /\ wrote (strict o) QText ts QText r r'
    /\ (forall p k K, holds_formulas p = true -> exists k1 k2 k3,
          build o ((p, k) :: K) ts = Some ((mtd, O) :: (mtr, k1) :: (mtable, k2) :: outer eg k3 ((p, S k) :: K)))
    /\ moved r r' es es' /\ (forall c m F, rest (Body true (Some (c, m)) :: F) es -> rest (Body b (Some (c, m)) :: F) es')
    /\ table_env eg 0 m.
Proof.
  intros g m r es Hm Hf He.
  assert (G : forall pre eg atts, open_group g = (do _ <- wr pre ; do _ <- open_cell ; ret eg) ->
    reads (strict o) QText pre [XO mtable atts] (QOpen mtr) -> (forall k K, outer eg k K = K) -> table_env eg 0 m ->
    exists eg r' ts es' b,
    open_group g r = (Ok eg, r') /\ wrote (strict o) QText ts QText r r'
    /\ (forall p k K, holds_formulas p = true -> exists k1 k2 k3,
          build o ((p, k) :: K) ts = Some ((mtd, O) :: (mtr, k1) :: (mtable, k2) :: outer eg k3 ((p, S k) :: K)))
    /\ moved r r' es es' /\ (forall c m F, rest (Body true (Some (c, m)) :: F) es -> rest (Body b (Some (c, m)) :: F) es')
    /\ table_env eg 0 m).
  { intros pre eg atts Eg Hr Ho Ht.
    destruct (open_table pre eg 0 m r es [XO mtable atts] He Hr) as (r' & ts & es' & b & E & A1 & A2 & A3 & A4); [|exact Ht|].
    - intros p k K Hp. exists O. rewrite Ho. now apply table_pre.
    - exists eg, r', ts, es', b. rewrite Eg. repeat (split; [assumption|]). exact Ht. }
  destruct g as [|l0 r0|cols|a|lf|n|n| |a|p n|p|n| | |]; cbn [marks] in Hm; try discriminate; injection Hm as Hm.
  - (* array *)
    clear G. cbn [fine] in Hf. assert (Hc : count cols <> O).
    { unfold count. apply existsb_exists in Hf as (x & H1 & H2). intro E0. apply length_zero_iff_nil in E0.
      assert (Hin : In x (filter is_col cols)) by (apply filter_In; auto). rewrite E0 in Hin. destruct Hin. }
    destruct (newline_spec o cols Hc) as (s & i & ts & En & Rn & Cn & Li & Ci).
    cbn [open_group]. unfold bind at 1. unfold wr at 1. unfold modify at 1.
    match goal with |- context [bind start_lines _ ?q] => set (r1 := q) end.
    destruct (start_lines_spec r1 es He) as (r2 & t2 & m2 & atts & es' & b & E2 & W2 & O2 & Rw & Mv & Hrest).
    unfold bind at 1. rewrite E2. unfold bind at 1. unfold wr at 1. unfold modify at 1. unfold bind at 1. unfold of_res at 1. rewrite En.
    unfold bind at 1. unfold wr, modify.
    eexists (EGArray cols i), _, ([XO mtable [(lit "class", lit "menv-arraylike")]] ++ t2 ++ [XO mtr atts] ++ ts)%list, es', b.
    split; [reflexivity|]. split; [|split; [|split; [exact Mv|split; [exact Hrest|]]]].
    + eapply wrote_trans with (r1 := r1); [exists (lit "<mtable class=""menv-arraylike""><mtr"); split; [reflexivity|lexlit (strict o)]|].
      eapply wrote_trans; [exact W2|]. exists (lit ">" ++ s)%list. split; [cbn; now rewrite <- app_assoc|].
      eapply reads_app; [apply reads_gt; exact O2|exact Rn].
    + intros p k K Hp. destruct (enters_row t2 atts ts Rw Cn O ((p, S k) :: K)) as (k1 & k2 & Ek). exists k1, k2, O.
      rewrite build_app, table_pre by exact Hp. exact Ek.
    + cbn [table_env]. split; [exact Hc|]. split; [unfold count; lia|]. split; [lia|]. cbn. now rewrite En.
  - destruct a; (eapply G with (eg := EGMatrix); [reflexivity|lexlit (strict o)|reflexivity|exact Logic.I]).
  - (* cases *)
    cbn [open_group].
    destruct (open_table ((lit "<mrow>" ++ (if lf then lit "<mo stretchy=""true"">{</mo>" else []) ++
          lit "<mtable class=""menv-cells-left menv-cases""><mtr")%list) (EGCases false lf) 0 m r es
          ([XO mrow []] ++ (if lf then [XO (lit "mo") [(lit "stretchy", lit "true")]; XT 123; XC (lit "mo")] else []) ++
           [XO mtable [(lit "class", lit "menv-cells-left menv-cases")]])%list He) as (r' & ts & es' & b & E & A1 & A2 & A3 & A4).
    + destruct lf; lexlit (strict o).
    + intros p k K Hp. exists (if lf then 2 else 1)%nat. cbn [app build outer]. rewrite (fits_formula p mrow Hp eq_refl).
      destruct lf; cbn [app].
      * pose proof (adds_token o (lit "mo") [(lit "stretchy", lit "true")] [XT 123] eq_refl eq_refl eq_refl) as Ad.
        specialize (Ad ltac:(repeat constructor) mrow O ((p, S k) :: K) eq_refl).
        change (XO (lit "mo") [(lit "stretchy", lit "true")] :: XT 123 :: XC (lit "mo") :: [XO mtable [(lit "class", lit "menv-cells-left menv-cases")]])
          with ((XO (lit "mo") [(lit "stretchy", lit "true")] :: [XT 123] ++ [XC (lit "mo")]) ++ [XO mtable [(lit "class", lit "menv-cells-left menv-cases")]])%list.
        rewrite build_app, Ad. reflexivity.
      * reflexivity.
    + reflexivity.
    + exists (EGCases false lf), r', ts, es', b. repeat (split; [assumption|]). reflexivity.
  - (* equation *)
    cbn [open_group]. unfold bind at 1. unfold wr, modify. eexists EGEquation, _, [XO mtable (if n then [(lit "class", lit "menv-with-eqn")] else []); XO mtr []; XO mtd []], es, true.
    split; [reflexivity|]. split; [|split; [|split; [repeat split; auto|split; [auto|exact Logic.I]]]].
    + eexists. split; [reflexivity|]. destruct n; lexlit (strict o).
    + intros p k K Hp. exists 1%nat, 1%nat, O. cbn [build]. rewrite (fits_formula p mtable Hp eq_refl). reflexivity.
  - destruct n; (eapply G with (eg := EGAlign); [reflexivity|lexlit (strict o)|reflexivity|exact Logic.I]).
  - eapply G with (eg := EGAlign); [reflexivity|lexlit (strict o)|reflexivity|exact Logic.I].
  - destruct a; (eapply G with (eg := EGSubArray); [reflexivity|lexlit (strict o)|reflexivity|exact Logic.I]).
  - destruct n; (eapply G with (eg := EGAlignat p 0); [reflexivity|lexlit (strict o)|reflexivity|cbn in Hf |- *; lia]).
  - eapply G with (eg := EGAlignat p 0); [reflexivity|lexlit (strict o)|reflexivity|]. cbn in Hf |- *. lia.
  - destruct n; (eapply G with (eg := EGGather); [reflexivity|lexlit (strict o)|reflexivity|exact Logic.I]).
  - eapply G with (eg := EGGather); [reflexivity|lexlit (strict o)|reflexivity|exact Logic.I].
  - eapply G with (eg := EGMultline); [reflexivity|lexlit (strict o)|reflexivity|exact Logic.I].
  - eapply G with (eg := EGSplit false); [reflexivity|lexlit (strict o)|reflexivity|reflexivity].
Qed.

Lemma fence_spec : forall d r s l, r_states r = s :: l -> delim_clean (strict o) d = true -> exists r' ts k,
  fence d r = (Ok tt, r') /\ wrote (strict o) QText ts QText r r' /\ adds o k ts
  /\ r_states r' = r_states r /\ r_envs r' = r_envs r /\ r_in r' = r_in r.
Proof.
  intros d r s l Hs Hd. unfold fence. destruct d as [c|].
  - unfold bind at 1. rewrite (open_tag_spec _ _ _ s l Hs). unfold bind, wr, modify. fields.
    eexists _, _, 1%nat. split; [reflexivity|]. cbn [r_states r_envs r_in set_out].
    assert (T : wrote (strict o) QText (XO (lit "mo") (open_atts (r_envs r) s None ++ [(lit "stretchy", lit "true")]) :: [XT c] ++ [XC (lit "mo")]) QText r
        (set_out (((r_out r ++ open_str (r_envs r) s (lit "mo") None) ++ lit " stretchy=""true"">") ++ [c] ++ lit "</mo>") r)
      /\ adds o 1 (XO (lit "mo") (open_atts (r_envs r) s None ++ [(lit "stretchy", lit "true")]) :: [XT c] ++ [XC (lit "mo")])).
    { eapply wrote_token with (envs := r_envs r) (s := s) (c := None) (extra := attr (lit "stretchy") (lit "true")) (txt := [c]);
        [ |reflexivity|reflexivity|reflexivity|reflexivity|exact Logic.I
          |intros m Hm; apply one_extra; [exact Hm|reflexivity|reflexivity|reflexivity]|apply reads_char; unfold delim_clean in Hd; destruct (strict o); [right; exact Hd|left; reflexivity]|repeat constructor].
      cbn [r_out set_out]. change (lit " stretchy=""true"">") with (attr (lit "stretchy") (lit "true") ++ lit ">")%list.
      change (lit "</mo>") with (close_str (lit "mo")). rewrite <- !app_assoc. reflexivity. }
    destruct T as [T1 T2]. split; [|split; [exact T2|auto]].
    destruct T1 as (s1 & S1 & S2). exists s1. split; [|exact S2]. cbn [r_out set_out] in S1 |- *. rewrite <- S1. rewrite <- !app_assoc. reflexivity.
  - exists r, [], O. split; [reflexivity|]. split; [now apply wrote_refl|]. split; [apply adds_nil|auto].
Qed.

Lemma leading_spec : forall fuel es r s l F, stream (r_in r) = es -> r_states r = s :: l -> (length es < fuel)%nat ->
  rest (Body true None :: F) es ->
  exists r' s' es', leading_changes fuel r = (Ok tt, r') /\ r_out r' = r_out r /\ r_envs r' = r_envs r
    /\ r_states r' = s' :: l /\ stream (r_in r') = es' /\ (length es' <= length es)%nat
    /\ rest (Body true None :: F) es'.
Proof.
  induction fuel as [|f IH]; intros es r s l F He Hs Hf HR; [lia|]. cbn [leading_changes].
  unfold bind at 1. destruct (in_first_spec r) as (m' & -> & Em). rewrite He in Em |- *.
  assert (Hno : exists r' s' es', (Ok tt, set_in m' r) = (@Ok unit tt, r') /\ r_out r' = r_out r /\ r_envs r' = r_envs r
    /\ r_states r' = s' :: l /\ stream (r_in r') = es' /\ (length es' <= length es)%nat
    /\ rest (Body true None :: F) es').
  { exists (set_in m' r), s, es. repeat (split; [solve [auto]|]). exact HR. }
  destruct es as [|[e|msg] es]; [exact Hno| |exact Hno]. cbn [map nth_error]. destruct e as [| | | | | |c|]; try exact Hno. clear Hno.
  unfold bind at 1. unfold handle_state_change, mod_state. cbn [r_states set_in]. rewrite Hs.
  set (r1 := set_states (apply_change c s :: l) (set_in m' r)).
  destruct (in_next_spec r1 (RIEvent (EvState c)) es) as (m2 & E2 & Em2); [exact Em|].
  unfold bind at 1. rewrite E2. destruct (rest_next _ _ _ HR) as (F' & Ef & HR' & _). cbn [feed as_event] in Ef. injection Ef as <-.
  destruct (IH es (set_in m2 r1) (apply_change c s) l F Em2 eq_refl) as (r' & s' & es' & A1 & A2 & A3 & A4 & A5 & A6 & A7);
    [cbn in Hf; lia|exact HR'|].
  exists r', s', es'. split; [exact A1|]. split; [rewrite A2; reflexivity|]. split; [rewrite A3; reflexivity|]. split; [exact A4|]. split; [exact A5|].
  split; [cbn; lia|exact A7].
Qed.

Lemma in_length_spec : forall r, in_length r = (Ok (length (stream (r_in r))), r).
Proof. intro r. unfold in_length, stream. now rewrite app_length. Qed.

(** A plain group. *)
Lemma step_begin_plain : forall F K r es g, is_math_env g = false ->
  W false F (r_envs r) K -> holds r es -> rest F (RIEvent (EvBegin g) :: es) ->
  stepped K r es (render_item cfg (RIEvent (EvBegin g))).
Proof.
  intros F K r es g Hg HW [H1 H2] HR. destruct (rest_next _ _ _ HR) as (F' & Ef & HR' & Hf & _). cbn [feed as_event] in Ef.
  destruct (open_done _ _ _ Ef) as (-> & F1 & HD).
  assert (Hm : marks g = None) by (destruct g; try discriminate; reflexivity). rewrite Hm in HR'. cbn [option_map] in HR'.
  destruct (r_states r) as [|s l] eqn:Es; [discriminate|].
  destruct (W_top _ _ _ _ HW) as (p & j & K' & -> & Hp).
  set (r1 := set_states (s :: s :: l) (set_prev None r)).
  destruct (leading_spec (S (length (stream (r_in r1)))) es r1 s (s :: l) F H2 eq_refl) as (r2 & s2 & es' & E2 & O2 & N2 & S2 & I2 & L2 & R2);
    [cbn [r1 r_in set_states set_prev]; rewrite H2; lia|exact HR'|].
  set (r3 := set_states (mkState (t_font s2) None None None None :: s :: l) (set_out (r_out r2 ++ open_str (r_envs r2) s2 mrow None ++ lit ">") r2)).
  assert (E3 : forall A (k : R A), (do _ <- modify (set_prev None) ;
      do _ <- (if is_math_env g then push_state default_state else
        do s <- state ; push_state s ;; do n <- in_length ; leading_changes (S n) ;; open_tag (lit "mrow") None ;; wr (lit ">") ;;
        mod_state (fun s => mkState (t_font s) None None None None)) ; k) r = k r3).
  { intros A k. rewrite Hg. unfold bind at 1. unfold modify at 1. unfold bind at 1. unfold bind at 1. unfold state at 1. cbn [r_states set_prev]. rewrite Es.
    unfold bind at 1. unfold push_state at 1. unfold modify at 1. cbn [r_states set_prev]. rewrite Es. fold r1.
    unfold bind at 1. rewrite in_length_spec. unfold bind at 1. rewrite E2. unfold bind at 1. rewrite (open_tag_spec _ _ _ s2 (s :: l) S2).
    unfold bind at 1. unfold wr, modify. unfold mod_state. fields. rewrite S2. unfold r3. rewrite <- app_assoc. reflexivity. }
  set (atts := open_atts (r_envs r2) s2 None).
  assert (W3 : wrote (strict o) QText [XO mrow atts] QText r r3).
  { exists (open_str (r_envs r2) s2 mrow None ++ lit ">")%list. split; [cbn [r3 r_out set_states set_out]; rewrite O2; reflexivity|].
    destruct (reads_open (strict o) (r_envs r2) s2 mrow None eq_refl Logic.I) as (m1 & R1 & O1).
    eapply reads_cat with (t1 := []); [exact R1|apply reads_gt; exact O1|reflexivity]. }
  assert (B3 : build o ((p, j) :: K') [XO mrow atts] = Some ((mrow, O) :: (p, S j) :: K')).
  { cbn [build]. rewrite fits_formula; [reflexivity|exact Hp|reflexivity]. }
  assert (A4 : exists eg r4 t4 k4, open_group g r3 = (Ok eg, r4) /\ wrote (strict o) QText t4 QText r3 r4 /\ adds o k4 t4 /\
     plain_env (strict o) eg = true /\ r_states r4 = r_states r3 /\ r_envs r4 = r_envs r3 /\ r_in r4 = r_in r3).
  { destruct g; try discriminate; cbn [open_group].
    - exists EGNormal, r3, [], O. split; [reflexivity|]. split; [now apply wrote_refl|]. split; [apply adds_nil|auto].
    - cbn [fine] in Hf. destruct Hf as [Hf1 Hf2].
      destruct (fence_spec l0 r3 (mkState (t_font s2) None None None None) (s :: l) eq_refl Hf1) as (r4 & t4 & k4 & E4 & W4 & Ad4 & S4 & N4 & I4).
      exists (EGLeftRight r0), (set_prev (Some AtOpen) r4), t4, k4. unfold bind at 1. rewrite E4. unfold bind, modify. split; [reflexivity|].
      split; [destruct W4 as (s0 & W4 & W5); exists s0; auto|]. split; [exact Ad4|]. split; [exact Hf2|]. auto. }
  destruct A4 as (eg & r4 & t4 & k4 & E4 & W4 & Ad4 & Pl & S4 & N4 & I4).
  eapply finish_open with (r1 := set_envs (ENGroup eg :: r_envs r4) r4) (ts := ([XO mrow atts] ++ t4)%list) (F' := Body true None :: F) (es' := es');
    [| |rewrite build_app, B3; exact (Ad4 mrow O _ eq_refl)|reflexivity| | |exact R2|exact L2].
  - cbn [write_event]. unfold begin_group. rewrite E3. unfold bind at 1. rewrite E4. reflexivity.
  - eapply wrote_trans; [exact W3|]. destruct W4 as (s0 & W4 & W5). exists s0. auto.
  - cbn [r_envs set_envs]. constructor; [exact Pl|]. rewrite N4. cbn [r3 r_envs set_states set_out]. rewrite N2. cbn. now apply W_child.
  - split.
    + cbn [r_states set_envs r_envs]. rewrite S4, N4. cbn [r3 r_states set_states r_envs set_out]. rewrite N2. unfold groups in *. cbn. cbn in H1. lia.
    + cbn [r_in set_envs]. rewrite I4. exact I2.
Qed.

(** An environment. *)
Lemma step_begin_env : forall F K r es g, is_math_env g = true ->
  W false F (r_envs r) K -> holds r es -> rest F (RIEvent (EvBegin g) :: es) ->
  stepped K r es (render_item cfg (RIEvent (EvBegin g))).
Proof.
  intros F K r es g Hg HW [H1 H2] HR. destruct (rest_next _ _ _ HR) as (F' & Ef & HR' & Hf & _). cbn [feed as_event] in Ef.
  destruct (open_done _ _ _ Ef) as (-> & F1 & HD).
  assert (Hm : exists m, marks g = Some m) by (destruct g; try discriminate; cbn; eauto). destruct Hm as (m & Hm).
  rewrite Hm in HR'. cbn [option_map] in HR'.
  destruct (W_top _ _ _ _ HW) as (p & j & K' & -> & Hp).
  set (r1 := set_states (default_state :: r_states r) (set_prev None r)).
  destruct (open_group_spec g m r1 es Hm Hf H2) as (eg & r2 & ts & es' & b & E2 & W2 & B2 & (S2 & N2 & I2 & L2) & R2 & T2).
  destruct (B2 p j K' Hp) as (k1 & k2 & k3 & Bk).
  eapply finish_open with (r1 := set_envs (ENGroup eg :: r_envs r2) r2) (ts := ts) (F' := Body b (Some (0, m)) :: F) (es' := es');
    [| |exact Bk|reflexivity| | |exact (R2 _ _ _ HR')|exact L2].
  - cbn [write_event]. unfold begin_group. rewrite Hg. unfold bind at 1. unfold modify at 1. unfold bind at 1. unfold push_state at 1. unfold modify at 1.
    fold r1. unfold bind at 1. change (set_states (default_state :: r_states (set_prev None r)) (set_prev None r)) with r1. rewrite E2. reflexivity.
  - destruct W2 as (s0 & W2 & W3). exists s0. auto.
  - cbn [r_envs set_envs]. constructor; [exact T2|]. rewrite N2. cbn. now apply W_child.
  - split.
    + cbn [r_states set_envs r_envs]. rewrite S2, N2. cbn [r1 r_states set_states r_envs set_prev]. unfold groups in *. cbn. cbn in H1. lia.
    + exact I2.
Qed.

(** The end of a group. *)
Lemma array_index_ok : forall cols i c m, table_env (EGArray cols i) c m -> (i <= length cols)%nat.
Proof.
  intros cols i c m (Hc & -> & Hcm & Hp). destruct (array_pos_spec o cols (N.to_nat c)) as (i' & E & L & _); [lia|].
  assert (i' = i) by congruence. now subst.
Qed.

Lemma close_group_spec : forall g c m r, table_env g c m -> exists r' ts, close_group g r = (Ok tt, r')
  /\ wrote (strict o) QText ts QText r r' /\ (forall k k1 k2 k3 K,
       build o ((mtd, k) :: (mtr, k1) :: (mtable, k2) :: outer g k3 K) ts = Some K)
  /\ r_states r' = r_states r /\ r_envs r' = r_envs r /\ r_in r' = r_in r.
Proof.
  intros g c m r Ht.
  assert (G : (forall k K, outer g k K = K) -> close_group g = wr (lit "</mtd></mtr></mtable>") ->
    exists r' ts, close_group g r = (Ok tt, r')
  /\ wrote (strict o) QText ts QText r r' /\ (forall k k1 k2 k3 K,
       build o ((mtd, k) :: (mtr, k1) :: (mtable, k2) :: outer g k3 K) ts = Some K)
  /\ r_states r' = r_states r /\ r_envs r' = r_envs r /\ r_in r' = r_in r).
  { intros Ho ->. eexists _, [XC mtd; XC mtr; XC mtable]. split; [reflexivity|].
    split; [exists (lit "</mtd></mtr></mtable>"); split; [reflexivity|lexlit (strict o)]|].
    split; [|auto]. intros k k1 k2 k3 K. rewrite Ho. cbn [build]. rewrite !str_eqb_refl, complete_mtd. cbn [andb].
    rewrite complete_mtr. cbn [andb]. now rewrite complete_mtable. }
  destruct g as [|d|cols i| |used lf| |p used| | | |used|]; try contradiction; try (apply G; reflexivity).
  - (* array *)
    pose proof (array_index_ok cols i c m Ht) as Hi. cbn [close_group].
    assert (E : Nat.ltb (length cols) i = false) by (apply Nat.ltb_ge; lia). rewrite E.
    destruct (border_cells_reads o (leading_seps (skipn i cols))) as (ts & R & C).
    eexists _, ([XC mtd] ++ ts ++ [XC mtr; XC mtable])%list. split; [reflexivity|]. split; [|split; [|auto]].
    + exists (lit "</mtd>" ++ border_cells (leading_seps (skipn i cols)) ++ lit "</mtr></mtable>")%list.
      split; [cbn [r_out set_out wr modify bind]; rewrite <- !app_assoc; reflexivity|].
      eapply reads_app; [lexlit (strict o)|]. eapply reads_app; [exact R|lexlit (strict o)].
    + intros k k1 k2 k3 K. cbn [app build outer]. rewrite str_eqb_refl, complete_mtd. cbn [andb]. rewrite build_app.
      destruct (C k1 ((mtable, k2) :: K)) as (k' & ->). cbn [build]. rewrite !str_eqb_refl, complete_mtr. cbn [andb]. now rewrite complete_mtable.
  - (* cases *)
    cbn [close_group]. eexists _, ([XC mtd; XC mtr; XC mtable] ++ (if lf then [] else XO (lit "mo") [(lit "stretchy", lit "true")] :: [XT 125] ++ [XC (lit "mo")]) ++ [XC mrow])%list.
    split; [reflexivity|]. split; [|split; [|auto]].
    + exists (lit "</mtd></mtr></mtable>" ++ (if lf then [] else lit "<mo stretchy=""true"">}</mo>") ++ lit "</mrow>")%list.
      split; [cbn [r_out set_out wr modify bind]; rewrite <- !app_assoc; reflexivity|]. destruct lf; lexlit (strict o).
    + intros k k1 k2 k3 K. rewrite build_app. cbn [outer]. cbn [build]. rewrite !str_eqb_refl, complete_mtd. cbn [andb].
      rewrite complete_mtr. cbn [andb]. rewrite complete_mtable. cbn [andb]. rewrite build_app.
      assert (Ad : exists j, build o ((mrow, k3) :: K) (if lf then [] else XO (lit "mo") [(lit "stretchy", lit "true")] :: [XT 125] ++ [XC (lit "mo")]) = Some ((mrow, j) :: K)).
      { destruct lf; [exists k3; reflexivity|]. exists (1 + k3)%nat.
        apply (adds_token o (lit "mo") [(lit "stretchy", lit "true")] [XT 125] eq_refl eq_refl eq_refl); [repeat constructor|reflexivity]. }
      destruct Ad as (j & ->). cbn [build]. now rewrite str_eqb_refl, complete_mrow.
Qed.

Lemma step_end : forall F K r es,
  W false F (r_envs r) K -> holds r es -> rest F (RIEvent EvEnd :: es) ->
  stepped K r es (render_item cfg (RIEvent EvEnd)).
Proof.
  intros F K r es HW [H1 H2] HR. destruct (rest_next _ _ _ HR) as (F' & Ef & HR' & _ & _). cbn [feed as_event] in Ef.
  destruct F as [|[s x|n] F1]; try discriminate.
  assert (A : exists g E, r_envs r = ENGroup g :: E) by (inversion HW; subst; [discriminate| |]; eauto).
  destruct A as (g & E & En). destruct (r_states r) as [|s0 l] eqn:Es; [discriminate|].
  assert (Hl : length l = S (groups E)) by (rewrite En in H1; unfold groups in *; cbn in H1 |- *; lia).
  destruct l as [|s1 l]; [discriminate|].
  set (r1 := set_prev (Some AtInner) (set_states (s1 :: l) (set_envs E r))).
  assert (E1 : forall (r2 : rst), close_group g r1 = (Ok tt, r2) -> write_event cfg (RIEvent EvEnd) r = (Ok tt, r2)).
  { intros r2 E2. cbn [write_event]. unfold end_group. unfold bind at 1. unfold get at 1. rewrite En.
    unfold bind at 1. unfold modify at 1. unfold bind at 1. rewrite Es. unfold modify at 1. unfold bind at 1. unfold modify at 1.
    exact E2. }
  assert (A : exists r2 ts K2, close_group g r1 = (Ok tt, r2) /\ wrote (strict o) QText ts QText r1 r2 /\ build o K ts = Some K2
      /\ W true F1 E K2 /\ r_states r2 = s1 :: l /\ r_envs r2 = E /\ r_in r2 = r_in r).
  { rewrite En in HW. inversion HW; subst.
    - match goal with H : plain_env (strict o) g = true |- _ => rename H into Hp end.
      destruct g as [|d| | | | | | | | | |]; try discriminate; cbn [close_group].
      + eexists _, [XC mrow], K0. split; [reflexivity|]. split; [exists (lit "</mrow>"); split; [reflexivity|lexlit (strict o)]|].
        split; [cbn [build]; now rewrite str_eqb_refl, complete_mrow|]. auto.
      + destruct (fence_spec d r1 s1 l eq_refl Hp) as (r2 & ts & k4 & E4 & W4 & Ad4 & S4 & N4 & I4).
        unfold bind at 1. rewrite E4. eexists _, (ts ++ [XC mrow])%list, K0. split; [reflexivity|].
        split; [|split; [rewrite build_app, (Ad4 mrow k K0 eq_refl); cbn [build]; now rewrite str_eqb_refl, complete_mrow|auto]].
        eapply wrote_trans; [exact W4|]. exists (lit "</mrow>"). split; [reflexivity|lexlit (strict o)].
    - match goal with H : table_env g c m |- _ => rename H into Ht end.
      destruct (close_group_spec g c m r1 Ht) as (r2 & ts & E2 & W2 & B2 & S2 & N2 & I2).
      exists r2, ts, K0. split; [exact E2|]. split; [exact W2|]. split; [apply B2|]. auto. }
  destruct A as (r2 & ts & K2 & E2 & W2 & B2 & HW2 & S2 & N2 & I2).
  eapply finish with (F := F1) (ts := ts); [exact (E1 r2 E2)| |exact B2|rewrite N2; exact HW2|exact Ef| |exact HR'|apply le_n].
  - destruct W2 as (t & T1 & T2). exists t. split; [exact T1|exact T2].
  - split; [rewrite S2, N2; exact Hl|rewrite I2; exact H2].
Qed.

(** ** Flow events *)

Definition reset (g : egroup) : egroup :=
  match g with
  | EGCases _ lf => EGCases false lf
  | EGSplit _ => EGSplit false
  | EGAlignat p _ => EGAlignat p 0
  | _ => g
  end.
Definition simple_table (g : egroup) : bool :=
  match g with EGNormal | EGLeftRight _ | EGArray _ _ | EGEquation => false | _ => true end.
Definition spacing_str (d : option dimension) : str :=
  match d with
  | Some d => (attr (lit "style") (lit "height: " ++ dim_display d) ++ lit ">" ++ lit "<mtd class=""menv-nonumber""></mtd></mtr><mtr")%list
  | None => []
  end.

Lemma newline_simple : forall g E r s l sp hl, simple_table g = true -> r_envs r = ENGroup g :: E -> r_states r = s :: l ->
  write_newline sp hl r =
  (Ok tt, mkRst (r_in r) (r_out r ++ lit "</mtd></mtr><mtr" ++ spacing_str sp ++ env_horizontal_lines hl ++ lit "><mtd>")
     (ENGroup (reset g) :: E) (default_state :: l) None (r_err r)).
Proof.
  intros g E [ri ro re rs rp rr] s l sp hl Hg He Hs. cbn in He, Hs. subst re rs. unfold write_newline, mod_state. fields.
  unfold bind at 1. fields. unfold bind at 1. unfold modify at 1. unfold bind at 1. unfold get at 1. fields.
  destruct g; try discriminate; destruct sp as [d|]; run; fields; unfold spacing_str, reset; rewrite <- ?app_assoc; reflexivity.
Qed.

Lemma height_reads : forall d, f32_ok (dvalue d) -> reads (strict o) (QOpen mtr) (attr (lit "style") (lit "height: " ++ dim_display d) ++ lit ">")
  [XO mtr [(lit "style", lit "height: " ++ dim_display d)%list]] QText.
Proof.
  intros d Hd. eapply reads_cat with (t1 := []); [apply (reads_attr (strict o) (QOpen mtr) mtr [] (lit "style") (lit "height: " ++ dim_display d)%list)| |reflexivity].
  - now left.
  - reflexivity.
  - reflexivity.
  - rewrite val_ok_app, dim_val by exact Hd. reflexivity.
  - apply reads_gt. apply in_open_tag.
Qed.

Lemma spacing_reads : forall d, dim_ok d -> exists ts, reads (strict o) (QOpen mtr) (spacing_str d) ts (QOpen mtr) /\ rows o ts.
Proof.
  intros [d|] Hd; [|exists []; split; [apply reads_nil|apply rows_nil]]. cbn [spacing_str].
  exists ([XO mtr [(lit "style", lit "height: " ++ dim_display d)%list]] ++ [XO mtd [(lit "class", lit "menv-nonumber")]; XC mtd; XC mtr])%list. split.
  - rewrite app_assoc. eapply reads_app; [exact (height_reads d Hd)|lexlit (strict o)].
  - intros k K. exists (S k). cbn [app build]. change (fits mtable mtr) with true. cbn iota.
    change (fits mtr mtd) with true. cbn iota. rewrite !str_eqb_refl, complete_mtd. cbn [andb]. now rewrite complete_mtr.
Qed.

Lemma end_row_enters : forall t1 t2 j k l K, end_row o t1 -> enters t2 ->
  exists k1 k2, build o ((mtd, j) :: (mtr, k) :: (mtable, l) :: K) (t1 ++ t2) = Some ((mtd, O) :: (mtr, k1) :: (mtable, k2) :: K).
Proof. intros t1 t2 j k l K H1 H2. rewrite build_app, H1. apply H2. Qed.

Lemma rows_enters : forall t1 t2, rows o t1 -> enters t2 -> enters (t1 ++ t2).
Proof. intros t1 t2 H1 H2 k K. rewrite build_app. destruct (H1 k K) as (k' & ->). apply H2. Qed.

Lemma end_row_plain : end_row o [XC mtd; XC mtr].
Proof. intros j k l K. cbn [build]. rewrite !str_eqb_refl, complete_mtd. cbn [andb]. now rewrite complete_mtr. Qed.

Lemma count_le : forall cols, (count cols <= length cols)%nat.
Proof. unfold count. induction cols as [|[a|x] cols IH]; cbn; lia. Qed.

(** What [write_newline] writes in an array. *)
Lemma newline_array : forall cols i E r s l sp hl c m, table_env (EGArray cols i) c m -> dim_ok sp ->
  r_envs r = ENGroup (EGArray cols i) :: E -> r_states r = s :: l ->
  exists i' out ts, write_newline sp hl r = (Ok tt, mkRst (r_in r) (r_out r ++ out) (ENGroup (EGArray cols i') :: E) (default_state :: l) None (r_err r))
    /\ reads (strict o) QText out ts QText
    /\ (forall k k1 k2 K, exists k1' k2', build o ((mtd, k) :: (mtr, k1) :: (mtable, k2) :: K) ts = Some ((mtd, O) :: (mtr, k1') :: (mtable, k2') :: K))
    /\ table_env (EGArray cols i') 0 m.
Proof.
  intros cols i E [ri ro re rs rp rr] s l sp hl c m Ht Hd He Hs. cbn in He, Hs. subst re rs.
  pose proof (array_index_ok cols i c m Ht) as Hi. destruct Ht as (Hc & Hm & Hcm & Hp).
  destruct (newline_spec o cols Hc) as (s1 & i1 & t1 & E1 & R1 & C1 & L1 & _).
  destruct (close_line_spec o cols i Hi) as (s2 & t2 & E2 & R2 & B2).
  destruct (hlines_spec o hl) as (t3 & m3 & a3 & R3 & O3 & Rw3).
  assert (A : exists ssp tsp, reads (strict o) (QOpen mtr) ssp tsp (QOpen mtr) /\ rows o tsp /\
     forall (k : unit -> R unit) r0, (do u <- (match sp with
       | Some d =>
           wr (attr (lit "style") (lit "height: " ++ dim_display d) ++ lit ">")%list ;;
                (do (s, i0) <- of_res (array_newline cols) ;
                wr s ;;
                do (s, i0) <- of_res (empty_row (length cols) cols i0 i) ;
                wr s ;;
                do s <- of_res (array_close_line cols i0) ;
                wr s)
       | None => ret tt
       end) ; k u) r0 = k tt (set_out (r_out r0 ++ ssp) r0)).
  { destruct sp as [d|].
    - destruct (empty_row_spec o cols (N.to_nat c) 0 i1 i (length cols)) as (s4 & t4 & E4 & R4 & B4).
      + cbn. lia.
      + pose proof (count_le cols). lia.
      + cbn. now rewrite E1.
      + exact Hp.
      + exists ((attr (lit "style") (lit "height: " ++ dim_display d) ++ lit ">") ++ s1 ++ s4 ++ s2)%list,
          ([XO mtr [(lit "style", lit "height: " ++ dim_display d)%list]] ++ t1 ++ t4 ++ t2)%list. split; [|split].
        * eapply reads_app; [exact (height_reads d Hd)|]. eapply reads_app; [exact R1|]. eapply reads_app; [exact R4|exact R2].
        * intros k K. destruct (C1 O ((mtable, S k) :: K)) as (k1 & Ek1). destruct (B4 O k1 ((mtable, S k) :: K)) as (b & k2 & Ek2).
          exists (S k). cbn [app build]. change (fits mtable mtr) with true. cbn iota. rewrite build_app, Ek1, build_app, Ek2. apply B2.
        * intros k r0. run. rewrite E1. fields. rewrite E4. fields. rewrite E2. fields. rewrite <- !app_assoc. destruct r0; reflexivity.
    - exists [], []. split; [apply reads_nil|]. split; [apply rows_nil|]. intros k r0. run. rewrite app_nil_r. destruct r0; reflexivity. }
  destruct A as (ssp & tsp & Rsp & Rwsp & Esp).
  exists i1, (s2 ++ ssp ++ env_horizontal_lines hl ++ lit ">" ++ s1)%list, (t2 ++ tsp ++ t3 ++ [XO mtr a3] ++ t1)%list.
  split; [|split; [|split]].
  - unfold write_newline, mod_state. fields.
    unfold bind at 1. fields. unfold bind at 1. unfold modify at 1. unfold bind at 1. unfold get at 1. fields.
    unfold bind at 1. unfold bind at 1. unfold of_res at 1. rewrite E2. unfold wr at 1. unfold modify at 1. fields. rewrite Esp.
    unfold bind at 1. unfold wr at 1. unfold modify at 1. unfold bind at 1. unfold wr at 1. unfold modify at 1.
    unfold bind at 1. unfold of_res at 1. rewrite E1. unfold bind at 1. unfold wr, modify. fields. rewrite <- !app_assoc. reflexivity.
  - eapply reads_app; [exact R2|]. eapply reads_app; [exact Rsp|]. eapply reads_app; [exact R3|].
    eapply reads_app; [apply reads_gt; exact O3|exact R1].
  - intros k k1 k2 K. apply end_row_enters; [exact B2|]. apply rows_enters; [exact Rwsp|]. apply enters_row; [exact Rw3|exact C1].
  - cbn [table_env]. split; [exact Hc|]. split; [exact Hm|]. split; [lia|]. cbn. now rewrite E1.
Qed.

Lemma step_newline : forall F K r es sp hl,
  W false F (r_envs r) K -> holds r es -> rest F (RIEvent (EvFlow (EFNewLine sp hl)) :: es) ->
  stepped K r es (render_item cfg (RIEvent (EvFlow (EFNewLine sp hl)))).
Proof.
  intros F K r es sp hl HW [H1 H2] HR. destruct (rest_next _ _ _ HR) as (F' & Ef & HR' & Hf & _). cbn [feed as_event] in Ef.
  destruct F as [|[s [[c m]|]|n] F1]; try discriminate. injection Ef as <-. cbn [fine] in Hf.
  inversion HW as [| |b0 s0 c0 m0 g F0 E K0 k k1 k2 k3 Ht HW0 X1 X2 X3|]; subst.
  remember (stream (r_in r)) as es eqn:H2. symmetry in H2.
  destruct (r_states r) as [|st l] eqn:Es; [discriminate|].
  assert (Fin : forall g' out ts err, write_newline sp hl r = (Ok tt, mkRst (r_in r) (r_out r ++ out) (ENGroup g' :: E) (default_state :: l) None err) ->
     reads (strict o) QText out ts QText ->
     (exists k1' k2' k3' kk, build o ((mtd, k) :: (mtr, k1) :: (mtable, k2) :: outer g k3 K0) ts = Some ((mtd, kk) :: (mtr, k1') :: (mtable, k2') :: outer g' k3' K0)) ->
     table_env g' 0 m -> stepped ((mtd, k) :: (mtr, k1) :: (mtable, k2) :: outer g k3 K0) r es (render_item cfg (RIEvent (EvFlow (EFNewLine sp hl))))).
  { intros g' out ts err E1 R1 (k1' & k2' & k3' & kk & B1) T1.
    eapply finish_open with (ts := ts) (F' := Body false (Some (0, m)) :: F1) (es' := es);
      [exact E1|exists out; split; [reflexivity|exact R1]|exact B1|reflexivity| | |exact HR'|apply le_n].
    - cbn [r_envs]. constructor; assumption.
    - split; [|exact H2]. cbn [r_states r_envs]. rewrite <- X3 in H1. unfold groups in *. cbn in H1 |- *. exact H1. }
  destruct (simple_table g) eqn:Eg.
  - destruct (spacing_reads sp Hf) as (t1 & R1 & Rw1). destruct (hlines_spec o hl) as (t2 & m2 & a2 & R2 & O2 & Rw2).
    eapply (Fin (reset g)); [apply newline_simple with (s := st); [exact Eg|now symmetry|exact Es]| | |].
    + eapply reads_app with (t1 := [XC mtd; XC mtr]) (m1 := QOpen mtr); [lexlit (strict o)|].
      eapply reads_app; [exact R1|]. eapply reads_app; [exact R2|].
      change (lit "><mtd>") with (lit ">" ++ lit "<mtd>")%list. eapply reads_app with (t2 := [XO mtd []]); [apply reads_gt; exact O2|lexlit (strict o)].
    + assert (Ho : outer (reset g) k3 K0 = outer g k3 K0) by (destruct g; reflexivity).
      destruct (end_row_enters [XC mtd; XC mtr] (t1 ++ t2 ++ [XO mtr a2] ++ [XO mtd []]) k k1 k2 (outer g k3 K0) end_row_plain) as (k1' & k2' & B).
      * apply rows_enters; [exact Rw1|]. apply enters_row; [exact Rw2|apply to_cell_one].
      * exists k1', k2', k3, O. rewrite Ho. exact B.
    + destruct g; try discriminate; cbn in Ht |- *; try exact Logic.I; try reflexivity. lia.
  - destruct g as [|d|cols i| | | | | | | | |]; try discriminate; try contradiction.
    + destruct (newline_array cols i E r st l sp hl c m Ht Hf) as (i' & out & ts & E1 & R1 & B1 & T1); [now symmetry|exact Es|].
      eapply (Fin (EGArray cols i')); [exact E1|exact R1| |exact T1]. destruct (B1 k k1 k2 K0) as (k1' & k2' & B). exists k1', k2', k3, O. exact B.
    + eapply (Fin EGEquation []) with (ts := []) (err := r_err r); [|apply reads_nil|exists k1, k2, k3, k; reflexivity|exact Logic.I].
      unfold write_newline, mod_state. unfold bind at 1. rewrite Es. unfold bind at 1. unfold modify at 1. unfold bind at 1. unfold get at 1.
      fields. rewrite <- X3. rewrite app_nil_r. destruct r; cbn in *. subst. reflexivity.
Qed.

Lemma step_alignment : forall F K r es,
  W false F (r_envs r) K -> holds r es -> rest F (RIEvent (EvFlow EFAlignment) :: es) ->
  stepped K r es (render_item cfg (RIEvent (EvFlow EFAlignment))).
Proof.
  intros F K r es HW [H1 H2] HR. destruct (rest_next _ _ _ HR) as (F' & Ef & HR' & _ & _). cbn [feed as_event] in Ef.
  destruct F as [|[s [[c m]|]|n] F1]; try discriminate. destruct (N.ltb_spec c m) as [Hcm|]; [|discriminate]. injection Ef as <-.
  inversion HW as [| |b0 s0 c0 m0 g F0 E K0 k k1 k2 k3 Ht HW0 X1 X2 X3|]; subst.
  remember (stream (r_in r)) as es eqn:H2. symmetry in H2.
  destruct (r_states r) as [|st l] eqn:Es; [discriminate|].
  assert (Fin : forall g' out ts err, write_alignment r = (Ok tt, mkRst (r_in r) (r_out r ++ out) (ENGroup g' :: E) (default_state :: l) None err) ->
     reads (strict o) QText out ts QText ->
     (exists k1' k3' kk, build o ((mtd, k) :: (mtr, k1) :: (mtable, k2) :: outer g k3 K0) ts = Some ((mtd, kk) :: (mtr, k1') :: (mtable, k2) :: outer g' k3' K0)) ->
     table_env g' (c + 1) m -> stepped ((mtd, k) :: (mtr, k1) :: (mtable, k2) :: outer g k3 K0) r es (render_item cfg (RIEvent (EvFlow EFAlignment)))).
  { intros g' out ts err E1 R1 (k1' & k3' & kk & B1) T1.
    eapply finish_open with (ts := ts) (F' := Body false (Some (c + 1, m)) :: F1) (es' := es);
      [exact E1|exists out; split; [reflexivity|exact R1]|exact B1|reflexivity| | |exact HR'|apply le_n].
    - cbn [r_envs]. constructor; assumption.
    - split; [|exact H2]. cbn [r_states r_envs]. rewrite <- X3 in H1. unfold groups in *. cbn in H1 |- *. exact H1. }
  assert (Nx : reads (strict o) QText next_cell [XC mtd; XO mtd []] QText) by (lexlit (strict o)).
  assert (Bx : build o ((mtd, k) :: (mtr, k1) :: (mtable, k2) :: outer g k3 K0) [XC mtd; XO mtd []] = Some ((mtd, O) :: (mtr, S k1) :: (mtable, k2) :: outer g k3 K0)).
  { cbn [build]. rewrite str_eqb_refl, complete_mtd. reflexivity. }
  assert (Ex : forall A (f : rst -> R A), (do _ <- mod_state (fun _ => default_state) ; do _ <- modify (set_prev None) ; do r <- get ; f r) r =
     f (mkRst (r_in r) (r_out r) (ENGroup g :: E) (default_state :: l) None (r_err r)) (mkRst (r_in r) (r_out r) (ENGroup g :: E) (default_state :: l) None (r_err r))).
  { intros A f. unfold mod_state. unfold bind at 1. rewrite Es. unfold bind at 1. unfold modify at 1. unfold bind at 1. unfold get at 1.
    destruct r; cbn in *. subst. reflexivity. }
  unfold write_alignment in Fin. rewrite Ex in Fin. fields. cbn [r_envs] in Fin.
  destruct g as [|d|cols i| |used lf| |p used| | | |used|]; try contradiction; cbn [table_env] in Ht.
  - (* array *)
    destruct Ht as (Hc & Hm & _ & Hp). destruct (array_pos_spec o cols (N.to_nat c)) as (i0 & E0 & L0 & C0); [lia|]. assert (i0 = i) by congruence. subst i0.
    destruct (count (skipn i cols)) as [|n] eqn:En; [lia|].
    destruct (align_spec o cols i n L0 En) as (s1 & i1 & t1 & E1 & R1 & N1 & L1 & C1).
    eapply (Fin (EGArray cols i1) s1 t1); [|exact R1| |].
    + unfold bind at 1. unfold of_res at 1. rewrite E1. unfold bind, wr, modify. reflexivity.
    + destruct (N1 k k1 ((mtable, k2) :: K0)) as (k1' & B). exists k1', k3, O. exact B.
    + cbn [table_env]. split; [exact Hc|]. split; [exact Hm|]. split; [lia|]. replace (N.to_nat (c + 1)) with (S (N.to_nat c)) by lia. cbn [array_pos]. now rewrite Hp, E1.
  - eapply (Fin EGMatrix next_cell); [reflexivity|exact Nx|exists (S k1), k3, O; exact Bx|exact Logic.I].
  - subst used. eapply (Fin (EGCases false lf) next_cell); [reflexivity|exact Nx|exists (S k1), k3, O; exact Bx|reflexivity].
  - eapply (Fin EGAlign next_cell); [reflexivity|exact Nx|exists (S k1), k3, O; exact Bx|exact Logic.I].
  - destruct Ht as [Hu Hm]. destruct (used / 2 <=? p).
    + destruct (N.eqb_spec used 65535); [lia|].
      eapply (Fin (EGAlignat p (used + 1)) next_cell); [reflexivity|exact Nx|exists (S k1), k3, O; exact Bx|cbn; lia].
    + eapply (Fin (EGAlignat p used) [] []); [unfold recover, modify; cbn; rewrite app_nil_r; reflexivity|apply reads_nil|exists k1, k3, k; reflexivity|cbn; lia].
  - eapply (Fin EGSubArray [] []); [unfold recover, modify; cbn; rewrite app_nil_r; reflexivity|apply reads_nil|exists k1, k3, k; reflexivity|exact Logic.I].
  - eapply (Fin EGGather [] []); [unfold recover, modify; cbn; rewrite app_nil_r; reflexivity|apply reads_nil|exists k1, k3, k; reflexivity|exact Logic.I].
  - eapply (Fin EGMultline [] []); [unfold recover, modify; cbn; rewrite app_nil_r; reflexivity|apply reads_nil|exists k1, k3, k; reflexivity|exact Logic.I].
  - subst used. eapply (Fin (EGSplit false) next_cell); [reflexivity|exact Nx|exists (S k1), k3, O; exact Bx|reflexivity].
  - eapply (Fin EGEquation [] []); [unfold recover, modify; cbn; rewrite app_nil_r; reflexivity|apply reads_nil|exists k1, k3, k; reflexivity|exact Logic.I].
Qed.

Lemma step_start_lines : forall F K r es lines,
  W false F (r_envs r) K -> holds r es -> rest F (RIEvent (EvFlow (EFStartLines lines)) :: es) ->
  stepped K r es (render_item cfg (RIEvent (EvFlow (EFStartLines lines)))).
Proof.
  intros F K r es lines HW [H1 H2] HR. destruct (rest_next _ _ _ HR) as (F' & Ef & HR' & _ & _). cbn [feed as_event] in Ef.
  destruct F as [|[s [[c m]|]|n] F1]; try discriminate. destruct s; [|discriminate]. injection Ef as <-.
  eapply finish_open with (r1 := set_err true r) (ts := []); [reflexivity|now apply wrote_refl|reflexivity| | | |exact HR'|apply le_n].
  - eapply close_body. exact HW.
  - destruct (W_top _ _ _ _ HW) as (p & j & K' & -> & Hp). cbn. eapply W_body. exact HW.
  - split; assumption.
Qed.

(** ** Whole streams *)

Lemma hex_val : forall n, val_ok (hex_u8 n) = true.
Proof.
  assert (A : forall n, val_char (hex_digit n) = true).
  { intro n. unfold hex_digit, val_char. destruct (N.ltb_spec n 10).
    - apply negb_true_iff. rewrite !(proj2 (N.eqb_neq _ _)) by lia. reflexivity.
    - apply negb_true_iff. rewrite !(proj2 (N.eqb_neq _ _)) by lia. reflexivity. }
  intro n. unfold hex_u8. destruct (n <? 16); cbn [val_ok forallb]; now rewrite ?A.
Qed.

Lemma error_reads : forall c msg, strict o = None \/ text_ok msg = true -> exists atts,
  reads (strict o) QText (error_str c msg) (XO (lit "merror") atts :: (XO (lit "mtext") [] :: map XT msg ++ [XC (lit "mtext")]) ++ [XC (lit "merror")]) QText.
Proof.
  intros [[x y] z] msg H. unfold error_str.
  set (v := (lit "border-color: #" ++ hex_u8 x ++ hex_u8 y ++ hex_u8 z)%list).
  assert (Hv : val_ok v = true) by (unfold v; rewrite !val_ok_app, !hex_val; reflexivity).
  exists [(lit "style", v)].
  replace (lit "<merror style=""border-color: #" ++ hex_u8 x ++ hex_u8 y ++ hex_u8 z ++ lit """><mtext>" ++ msg ++ lit "</mtext></merror>")%list
    with (lit "<merror" ++ attr (lit "style") v ++ lit ">" ++ lit "<mtext" ++ lit ">" ++ msg ++ close_str (lit "mtext") ++ close_str (lit "merror"))%list
    by (unfold attr, v; rewrite <- !app_assoc; reflexivity).
  eapply reads_cat with (t1 := []) (m1 := QOpen (lit "merror")); [lexlit (strict o)| |reflexivity].
  eapply reads_cat with (t1 := []); [apply (reads_attr (strict o) (QOpen (lit "merror")) (lit "merror") [] (lit "style") v); try reflexivity; [now left|exact Hv]| |reflexivity].
  eapply reads_cat; [apply reads_gt with (n := lit "merror") (atts := [(lit "style", v)]); apply in_open_tag| |].
  2: { cbn [app]. reflexivity. }
  eapply reads_cat with (t1 := []) (m1 := QOpen (lit "mtext")); [lexlit (strict o)| |reflexivity].
  eapply reads_cat; [apply reads_gt with (n := lit "mtext") (atts := []); now left| |].
  2: { cbn [app]. reflexivity. }
  rewrite <- app_assoc. eapply reads_app; [now apply reads_text|]. cbn [app].
  eapply reads_cat; [apply reads_close; reflexivity|apply reads_close; reflexivity|reflexivity].
Qed.

Lemma step_error : forall F K r es msg, W false F (r_envs r) K -> holds r es -> rest F (RIErr msg :: es) ->
  stepped K r es (render_item cfg (RIErr msg)).
Proof.
  intros F K r es msg HW [H1 H2] HR. destruct (rest_next _ _ _ HR) as (F' & Ef & HR' & [Hv Hc] & Hst). cbn [feed as_event] in Ef.
  assert (Ht : strict o = None \/ text_ok msg = true) by (cbn [content_clean] in Hc; destruct (strict o); auto).
  destruct (error_reads (c_error_color cfg) msg Ht) as (atts & R).
  destruct (W_top _ _ _ _ HW) as (p & j & K' & -> & Hp).
  eapply finish with (F := F) (r1 := set_out (r_out r ++ error_str (c_error_color cfg) msg) (set_err true r)); [reflexivity|eexists; split; [reflexivity|exact R]| | |exact Ef| |exact HR'|apply le_n].
  - assert (A : adds o 1 (XO (lit "merror") atts :: (XO (lit "mtext") [] :: map XT msg ++ [XC (lit "mtext")]) ++ [XC (lit "merror")])).
    { intros p0 j0 K0 Hp0. cbn [build]. rewrite (fits_formula p0 (lit "merror") Hp0 eq_refl).
      rewrite build_app, (adds_token o (lit "mtext") [] (map XT msg) eq_refl eq_refl eq_refl (text_map msg) (lit "merror") 0%nat ((p0, S j0) :: K0) eq_refl).
      cbn [build]. rewrite str_eqb_refl. unfold complete. destruct (arity o); reflexivity. }
    apply (A p j K' Hp).
  - now apply W_child.
  - split; [exact H1|exact H2].
Qed.

Lemma step_any : forall F K r es i, W false F (r_envs r) K -> holds r es -> rest F (i :: es) ->
  stepped K r es (render_item cfg i).
Proof.
  intros F K r es [e|msg] HW HH HR; [|eapply step_error; eassumption]. destruct e as [c|g| |v|ty pos|w h d|c|[|sp hl|lines]].
  - eapply step_content; eassumption.
  - destruct (is_math_env g) eqn:Eg; [eapply step_begin_env|eapply step_begin_plain]; eassumption.
  - eapply step_end; eassumption.
  - destruct v; try (eapply step_visual_plain; [discriminate|eassumption..]). eapply step_negation; eassumption.
  - eapply step_script; eassumption.
  - eapply step_space; eassumption.
  - eapply step_state; eassumption.
  - eapply step_alignment; eassumption.
  - eapply step_newline; eassumption.
  - eapply step_start_lines; eassumption.
Qed.

Lemma loop_spec : forall fuel F K r es, (length es < fuel)%nat -> Sim F K r es ->
  exists r' ts k, render_loop cfg fuel r = (Ok tt, r') /\ wrote (strict o) QText ts QText r r'
    /\ build o K ts = Some ((root, k) :: base) /\ r_envs r' = [] /\ length (r_states r') = 1%nat.
Proof.
  induction fuel as [|f IH]; intros F K r es Hf (HW & [H1 H2] & HR); [lia|]. cbn [render_loop].
  destruct es as [|e es].
  - unfold bind. unfold in_next. pose proof (next_stream ritem (r_in r)) as P. destruct (mp_next (r_in r)) as [[x|] m'].
    + rewrite H2 in P. discriminate.
    + destruct P as [-> _]. destruct HR as ((b & Eb) & _). injection Eb as ->. inversion HW; subst.
      * exists (set_in (r_in r) r), [], k. split; [reflexivity|]. split; [now apply wrote_refl|]. split; [reflexivity|].
        cbn. split; [auto|]. rewrite H1. match goal with H : [] = r_envs r |- _ => now rewrite <- H end.
      * match goal with H : W true [] _ _ |- _ => inversion H end.
  - destruct (in_next_spec r e es H2) as (m' & E1 & Em). unfold bind at 1. rewrite E1.
    set (r1 := set_in m' r).
    destruct (step_any F K r1 es e HW) as (r2 & t2 & K2 & F2 & es2 & E2 & W2 & B2 & S2 & L2); [split; [exact H1|exact Em]|exact HR|].
    unfold bind at 1. rewrite E2. destruct (IH F2 K2 r2 es2) as (r3 & t3 & k3 & E3 & W3 & B3 & N3 & S3); [cbn in Hf; lia|exact S2|].
    exists r3, (t2 ++ t3)%list, k3. split; [exact E3|]. split; [|split; [now rewrite build_app, B2|auto]].
    eapply wrote_trans; [|exact W3]. destruct W2 as (t & T1 & T2). exists t. auto.
Qed.

End Stacks.
