(** * FormulaNucleus: the parser does what SpecFormula says of a nucleus. *)

From Coq Require Import Ascii String List NArith ZArith Bool Lia Arith.
From Verif Require Import Base Float32 Event Tables Prim PrimTable Lex Macros Primitives Spans Parser
  SpecLex SpecNum LexFacts LexMore LexNum SpecFormula FormulaLex FormulaActs.
Import ListNotations.
Open Scope N_scope.
Open Scope list_scope.
Open Scope sm_scope.

Ltac means_is t := match goal with |- acts _ _ _ ?x _ _ =>
  replace x with t by (cbn; rewrite ?app_nil_r; repeat (cbn [app]; rewrite <- ?app_assoc); rewrite ?app_nil_r; reflexivity) end.

Section Known.
Context {KN : Known}.

Scheme nucleus_mut := Minimality for nucleus Sort Prop
  with arguments_mut := Minimality for arguments Sort Prop.
Combined Scheme nucleus_arguments from nucleus_mut, arguments_mut.

(** ** Arguments *)

Definition inside_does (h : bool) (s : str) (es : list event) (r : str) : Prop :=
  (exists w g, s = w ++ 123 :: g ++ 125 :: r /\ white w /\ balanced 123 125 g /\ formula None g es) \/
  (~ starts 123 s /\ does h s es no_limits r).

Fixpoint args_do (h : bool) (ks : list akind) (s : str) (ess : list (list event)) (r : str) : Prop :=
  match ks with
  | [] => ess = [] /\ r = s
  | Whole :: ks => exists es ess' s', ess = es :: ess' /\ does true s es no_limits s' /\ args_do h ks s' ess' r
  | Inside :: ks => exists es ess' s', ess = es :: ess' /\ inside_does h s es s' /\ args_do h ks s' ess' r
  end.

Lemma inside_length : forall h s es r, inside_does h s es r -> (length r < length s)%nat.
Proof.
  intros h s es r [(w & g & -> & _)|(_ & _ & H & _)]; [|exact H]. rewrite !app_length. cbn. rewrite !app_length. cbn. lia.
Qed.

Lemma args_length : forall h ks s ess r, args_do h ks s ess r -> (length r <= length s)%nat.
Proof.
  intros h. induction ks as [|[] ks IH]; cbn; intros s ess r H.
  - destruct H as [_ ->]. lia.
  - destruct H as (es & ess' & s' & _ & (_ & H1 & _) & H2). apply IH in H2. lia.
  - destruct H as (es & ess' & s' & _ & H1 & H2). apply IH in H2. apply inside_length in H1. lia.
Qed.

(** ** Commands *)

Definition ev_list (b : bool) (e : event) : list piece := if b then [E e] else [].

(** The command of SpecFormula for an arm of the parser. *)
Definition prim_command (cs : str) (p : prim) : option command :=
  match p with
  | PFunction => Some (mkCommand [] [E (EvContent (CFunction cs))] no_limits)
  | PFunctionLim => Some (mkCommand [] [E (EvContent (CFunction cs))] movable)
  | PFunNameLim name => Some (mkCommand [] [E (EvContent (CFunction name))] movable)
  | PLargeOp c m => Some (mkCommand [] [E (EvContent (CLargeOp c false))] (true, Some (if m then SPMovable else SPRight)))
  | PSmallint => Some (mkCommand [] [E (EvContent (CLargeOp 8747 true))] (true, None))
  | PAccent c st sp => Some (mkCommand [Whole] [E above; A 0; E (EvContent (COrdinary c st))]
      (false, if sp then Some SPAboveBelow else None))
  | PUnder c sp => Some (mkCommand [Whole] [E below; A 0; E (EvContent (COrdinary c true))]
      (false, if sp then Some SPAboveBelow else None))
  | PFraction o c bar s =>
      let oc := is_some o || is_some c in
      Some (mkCommand [Whole; Whole]
        (ev_list oc (EvBegin (GLeftRight o c)) ++
         match s with Some s => ev_list (negb oc) (EvBegin GNormal) ++ [E (EvState (SCStyle s))] | None => [] end ++
         [E (EvVisual (VFraction bar)); A 0; A 1] ++ ev_list (oc || is_some s) EvEnd) no_limits)
  | POverset ty => Some (mkCommand [Whole; Whole] [E (EvScript ty SPAboveBelow); A 1; A 0] no_limits)
  | PFontGroup f => Some (mkCommand [Inside] [E (EvBegin GNormal); E (EvState (SCFont f)); A 0; E EvEnd] no_limits)
  | PNot => Some (mkCommand [Whole] [E (EvVisual VNegation); A 0] no_limits)
  | PSurd => Some (mkCommand [] [E (EvVisual VSqrt);
      E (EvSpace (Some dim_zero_em) (Some (mkDim (f32_lit 7 1) UEm)) None)] no_limits)
  | PPmod => Some (mkCommand [Whole] [E (space_w (mkDim (f32_lit 1 0) UEm)); E (EvBegin GNormal);
      E (EvContent (CDelimiter 40 None DOpen)); E (EvContent (CFunction (lit "mod"))); A 0; E EvEnd;
      E (EvContent (CDelimiter 41 None DClose))] no_limits)
  | _ => None
  end.

Lemma commands_agree :
  map (fun p => prim_command (fst p) (lookup_prim (fst p))) commands = map (fun p => Some (snd p)) commands.
Proof. vm_compute. reflexivity. Qed.

Lemma map_eq_in : forall A B (f g : A -> B) l x, map f l = map g l -> In x l -> f x = g x.
Proof.
  intros A B f g. induction l as [|y l IH]; intros x H Hin; [destruct Hin|]. cbn in H. injection H as H1 H2.
  destruct Hin as [->|Hin]; auto.
Qed.

Lemma command_prim : forall cs c, In (cs, c) commands -> prim_command cs (lookup_prim cs) = Some c.
Proof.
  intros cs c H. exact (map_eq_in _ _ (fun p => prim_command (fst p) (lookup_prim (fst p))) (fun p => Some (snd p)) _ (cs, c) commands_agree H).
Qed.

Lemma commands_ne : forall cs c ess, In (cs, c) commands -> fill ess (c_body c) <> [].
Proof.
  assert (H : forallb (fun p => match c_body (snd p) with E _ :: _ => true | _ => false end) commands = true) by (vm_compute; reflexivity).
  intros cs c ess Hin. pose proof (proj1 (forallb_forall _ _) H _ Hin) as H1. cbn [snd] in H1.
  destruct (c_body c) as [|[e|i] b]; discriminate.
Qed.

(** Reading an argument, then anything that keeps the text, then handling it. *)
Lemma arg_between : forall s es r, does true s es no_limits r -> forall f st n es1 (k : sarg -> P unit) es2 l r2,
  stxt (i_content st) = s -> (length s <= f)%nat -> (length s <= n)%nat ->
  (forall a c, (forall st2, i_content st2 = c -> acts (handle_arg (hprim f) a) st2 n es no_limits r) ->
     acts (k a) (set_content c st) n (es1 ++ es2) l r2) ->
  acts (do a <- argc ; k a) st n (es1 ++ es2) l r2.
Proof.
  intros s es r H f st n es1 k es2 l r2 Hs Hf Hn Hk. destruct (arg_does s es r H f st Hs Hf) as (a & c & H1 & H2).
  destruct (Hk a c) as (L & c' & h & H3 & H4 & H5).
  { intros st2 Hst. eapply acts_more; [apply H2, Hst|exact Hn]. }
  exists L, c', h. unfold bind. rewrite H1. auto.
Qed.

(** Pushing keeps the text itself, not only what it reads. *)
Lemma push_then : forall evs (k : P unit) st n es l r,
  (forall st1, i_content st1 = i_content st -> i_handling st1 = i_handling st -> i_align st1 = i_align st -> acts k st1 n es l r) ->
  acts (push (map IEv evs) ;; k) st n (evs ++ es) l r.
Proof.
  intros evs k st n es l r Hk. destruct (Hk (set_buf (i_buf st ++ map IEv evs) st) eq_refl eq_refl eq_refl) as (L & c & h & H1 & H2 & H3).
  exists (map IEv evs ++ L), c, h. unfold bind, push, modify. rewrite H1. split; [|split; [exact H2|apply means_app; [apply means_evs|exact H3]]].
  unfold result. cbn. rewrite app_assoc. reflexivity.
Qed.

Lemma push_ev_then : forall e (k : P unit) st n es l r,
  (forall st1, i_content st1 = i_content st -> i_handling st1 = i_handling st -> i_align st1 = i_align st -> acts k st1 n es l r) ->
  acts (push_ev e ;; k) st n (e :: es) l r.
Proof. intros e k st n es l r Hk. exact (push_then [e] k st n es l r Hk). Qed.

Lemma ret_then : forall (k : P unit) st n es l r, acts k st n es l r -> acts (ret tt ;; k) st n es l r.
Proof. intros. assumption. Qed.

Lemma allow_then : forall (k : P unit) st n es p r,
  acts k (set_allow true st) n es (false, p) r -> acts (modify (set_allow true) ;; k) st n es (true, p) r.
Proof.
  intros k st n es p r (L & c & h & H1 & H2 & H3). exists L, c, h. unfold bind, modify. rewrite H1.
  split; [|auto]. unfold result. cbn. rewrite orb_true_r. destruct p; reflexivity.
Qed.

Lemma pos_then : forall (k : P unit) st n es p a r,
  acts k (set_pos p st) n es (a, None) r -> acts (modify (set_pos p) ;; k) st n es (a, Some p) r.
Proof. intros k st n es p a r (L & c & h & H1 & H2 & H3). exists L, c, h. unfold bind, modify. rewrite H1. auto. Qed.

Lemma acts_end : forall (m k : P unit) st n es r es' r',
  acts m st n es no_limits r -> (forall st1, stxt (i_content st1) = r -> acts k st1 n es' no_limits r') ->
  acts (m ;; k) st n (es ++ es') no_limits r'.
Proof. intros. eapply acts_then; [eassumption|auto]. Qed.

Lemma acts_handling : forall (k : P unit) st b n es l r, acts k (set_handling b st) n es l r -> exists L c h,
  k (set_handling b st) = (Ok tt, result st L c h l) /\ stxt c = r /\ means n L es.
Proof. intros k st b n es l r (L & c & h & H1 & H2 & H3). exists L, c, h. auto. Qed.

Lemma font_acts : forall h s es r f fo st n, inside_does h s es r -> i_handling st = h -> stxt (i_content st) = s ->
  (length s <= f)%nat -> (length s <= n)%nat ->
  acts (font_group (hprim f) fo) st n (EvBegin GNormal :: EvState (SCFont fo) :: es ++ [EvEnd]) no_limits r.
Proof.
  intros h s es r f fo st n H Hh Hs Hf Hn. unfold font_group. destruct H as [(w & g & -> & Hw & Hg & He)|(Hns & Hne & Hlen & H)].
  - destruct (argc_braced st w g r Hs Hw Hg) as (sl & c & H1 & H2 & H3).
    assert (Hx : acts (push [IEv (EvBegin GNormal); IEv (EvState (SCFont fo))] ;; push [ISub sl None] ;; push_ev EvEnd)
      (set_content c st) n ([EvBegin GNormal; EvState (SCFont fo)] ++ es ++ [EvEnd]) no_limits r).
    { apply (push_then [EvBegin GNormal; EvState (SCFont fo)]). intros st1 E1 _ _. apply (acts_end _ _ _ _ _ r).
      - replace es with (es ++ []) by apply app_nil_r. apply push_acts; [|rewrite E1; exact H3]. constructor; [|rewrite H2; exact He|constructor].
        rewrite H2. rewrite !app_length in Hn. cbn in Hn. rewrite app_length in Hn. cbn in Hn. lia.
      - intros st2 E2. apply push_ev_acts, E2. }
    destruct Hx as (L & c' & h' & Hx). exists L, c', h'. unfold bind at 1. rewrite H1. exact Hx.
  - destruct (lex_token s) as [[[cs|ctx]|e|p|] r0] eqn:Et; try contradiction.
    + destruct H as (Hr0 & H).
      assert (Hx : acts (push [IEv (EvBegin GNormal); IEv (EvState (SCFont fo))] ;; hprim f cs ;; push_ev EvEnd)
        (set_content (suffix_slice (i_content st) r0) st) n ([EvBegin GNormal; EvState (SCFont fo)] ++ es ++ [EvEnd]) no_limits r).
      { apply (push_then [EvBegin GNormal; EvState (SCFont fo)]). intros st1 E1 E2 _. apply (acts_end _ _ _ _ _ r).
        - eapply acts_more; [|exact Hn]. apply H; [rewrite E2; exact Hh|rewrite E1; reflexivity|lia].
        - intros st2 E3. apply push_ev_acts, E3. }
      destruct Hx as (L & c' & h' & Hx). exists L, c', h'. unfold bind at 1. unfold argc, arg_slice. rewrite Hs, (token_argument _ _ _ Hns Et). exact Hx.
    + assert (Hx : acts (push [IEv (EvBegin GNormal); IEv (EvState (SCFont fo))] ;; handle_char (suffix_slice (i_content st) ctx) ;; push_ev EvEnd)
        (set_content (suffix_slice (i_content st) r0) st) n ([EvBegin GNormal; EvState (SCFont fo)] ++ es ++ [EvEnd]) no_limits r).
      { apply (push_then [EvBegin GNormal; EvState (SCFont fo)]). intros st1 E1 E2 _. apply (acts_end _ _ _ _ _ r).
        - eapply acts_more; [|exact Hn]. apply H; [rewrite E2; exact Hh|rewrite E1; reflexivity|reflexivity].
        - intros st2 E3. apply push_ev_acts, E3. }
      destruct Hx as (L & c' & h' & Hx). exists L, c', h'. unfold bind at 1. unfold argc, arg_slice. rewrite Hs, (token_argument _ _ _ Hns Et). exact Hx.
Qed.

(** An argument, then the rest. *)
Lemma arg_seq : forall s es r, does true s es no_limits r -> forall f st n (k : P unit) es2 l r2,
  stxt (i_content st) = s -> (length s <= f)%nat -> (length s <= n)%nat ->
  (forall st1, stxt (i_content st1) = r -> i_align st1 = i_align st -> acts k st1 n es2 l r2) ->
  acts (do a <- argc ; handle_arg (hprim f) a ;; k) st n (es ++ es2) l r2.
Proof.
  intros s es r H f st n k es2 l r2 Hs Hf Hn Hk.
  destruct (arg_does s es r H f st Hs Hf) as (a & c & H1 & H2).
  assert (Hx : acts (handle_arg (hprim f) a ;; k) (set_content c st) n (es ++ es2) l r2).
  { eapply acts_then; [eapply acts_more; [apply H2; reflexivity|exact Hn]|]. exact Hk. }
  destruct Hx as (L & c' & h & Hx). exists L, c', h. unfold bind at 1. rewrite H1. exact Hx.
Qed.


Lemma fraction_acts : forall f o c bar s h t es1 t1 es2 r st n,
  does true t es1 no_limits t1 -> does true t1 es2 no_limits r -> i_handling st = h -> stxt (i_content st) = t ->
  (length t <= f)%nat -> (length t <= n)%nat ->
  acts (fraction_like (hprim f) o c bar s) st n
    (fill [es1; es2] (ev_list (is_some o || is_some c) (EvBegin (GLeftRight o c)) ++
         match s with Some s => ev_list (negb (is_some o || is_some c)) (EvBegin GNormal) ++ [E (EvState (SCStyle s))] | None => [] end ++
         [E (EvVisual (VFraction bar)); A 0; A 1] ++ ev_list ((is_some o || is_some c) || is_some s) EvEnd)) no_limits r.
Proof.
  intros f o c bar s h t es1 t1 es2 r st n H1 H2 Hh Hs Hf Hn.
  assert (Hmain : forall st0 b, stxt (i_content st0) = t -> acts
    (push_ev (EvVisual (VFraction bar)) ;; do num <- argc ; handle_arg (hprim f) num ;; do den <- argc ; handle_arg (hprim f) den ;;
     (if b : bool then push_ev EvEnd else ret tt)) st0 n
    (EvVisual (VFraction bar) :: es1 ++ es2 ++ (if b then [EvEnd] else [])) no_limits r).
  { intros st0 b H0. apply push_ev_then. intros st1 E1 _ _. eapply arg_seq; [exact H1|rewrite E1; exact H0|lia|lia|].
    intros st2 E2 _. assert (length t1 < length t)%nat by apply H1. eapply arg_seq; [exact H2|exact E2|lia|lia|].
    intros st3 E3 _. destruct b; [apply push_ev_acts, E3|apply acts_ret, E3]. }
  unfold fraction_like. set (oc := is_some o || is_some c).
  destruct oc; destruct s as [s|]; cbn [orb negb is_some].
  - means_is (EvBegin (GLeftRight o c) :: EvState (SCStyle s) :: EvVisual (VFraction bar) :: es1 ++ es2 ++ [EvEnd]).
    apply push_ev_then. intros st1 E1 _ _. apply (push_ev_then (EvState (SCStyle s))). intros st2 E2 _ _.
    apply (Hmain st2 true). rewrite E2, E1. exact Hs.
  - means_is (EvBegin (GLeftRight o c) :: EvVisual (VFraction bar) :: es1 ++ es2 ++ [EvEnd]).
    apply push_ev_then. intros st1 E1 _ _. apply ret_then. apply (Hmain st1 true). rewrite E1. exact Hs.
  - apply ret_then. means_is ([EvBegin GNormal; EvState (SCStyle s)] ++ EvVisual (VFraction bar) :: es1 ++ es2 ++ [EvEnd]).
    destruct (push_then [EvBegin GNormal; EvState (SCStyle s)]
        (push_ev (EvVisual (VFraction bar)) ;; do num <- argc ; handle_arg (hprim f) num ;; do den <- argc ; handle_arg (hprim f) den ;; push_ev EvEnd)
        st n (EvVisual (VFraction bar) :: es1 ++ es2 ++ [EvEnd]) no_limits r) as (L & c' & h' & H3 & H4).
    { intros st1 E1 _ _. apply (Hmain st1 true). rewrite E1. exact Hs. }
    exists L, c', h'. split; [|exact H4]. rewrite <- H3. unfold bind at 1 2, push_ev, push, modify. cbn [set_buf i_buf]. rewrite <- app_assoc. reflexivity.
  - apply ret_then. means_is (EvVisual (VFraction bar) :: es1 ++ es2 ++ []). apply ret_then. apply (Hmain st false). exact Hs.
Qed.

End Known.
