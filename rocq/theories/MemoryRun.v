(** * MemoryRun: comparing addresses finds the same expansions as knowing the allocations. *)

From Coq Require Import List NArith ZArith Bool Lia Arith.
From Verif Require Import Base Float32 Event Tables Prim PrimTable Lex Macros Primitives Spans Parser Memory
  SpecLex LexFacts LexMore PrimFacts Keep KeepRun MacroFacts Quiet LexPanic Terminate SimRun SpanFacts Api SpanRun.
Import ListNotations.
Open Scope N_scope.

Strategy 1000 [parse parse_at parse_fuel].

(** ** Where the allocations are *)

(** No two allocations share a byte. A newer one may end where an older one begins,
    but does not begin where an older one ends. *)
Definition apart (m : memory) : Prop :=
  forall i j, (i < j < length m)%nat ->
    let '(a, n) := nth i m (0%Z, 0) in
    let '(b, k) := nth j m (0%Z, 0) in
    (b + Z.of_N k <= a \/ a + Z.of_N n < b)%Z.

Definition keeps_apart (al : allocator) : Prop :=
  forall m n, apart m -> apart (m ++ [(al m n, n)]).

Lemma apart_one : forall x, apart [x].
Proof. intros x i j H. cbn in H. lia. Qed.

Definition length_at (m : memory) (b : N) : N := snd (nth (N.to_nat b) m (0%Z, 0)).

Definition fits (m : memory) (sp : spans) : Prop :=
  length_at m 0 = blen (s_input sp) /\ forall x, In x (s_exp sp) -> length_at m (sbase (x_full x)) = blen (stxt (x_full x)).

Lemma apart_between : forall m b y v n, apart m -> b < y -> (N.to_nat y < length m)%nat ->
  0 < v -> v <= length_at m b -> length_at m y = n ->
  between (address m y) n (address m b + Z.of_N v) = false.
Proof.
  intros m b y v n Ha Hby Hy Hv Hl Hn. specialize (Ha (N.to_nat b) (N.to_nat y) ltac:(lia)).
  unfold address, length_at, between in *. destruct (nth (N.to_nat b) m (0%Z, 0)) as [ab nb], (nth (N.to_nat y) m (0%Z, 0)) as [ay ny].
  cbn [fst snd] in *. subst ny. apply andb_false_iff. destruct Ha as [H|H]; [right; apply Z.leb_gt; lia|left; apply Z.leb_gt; lia].
Qed.

Lemma between_self : forall m b n v, v <= n -> between (address m b) n (address m b + Z.of_N v) = true.
Proof. intros m b n v H. unfold between. apply andb_true_iff. split; apply Z.leb_le; lia. Qed.

(** A slice at which the code may look: it does not start its allocation, or
    nothing newer is on the stack. *)
Definition clear (sp : spans) (c : slice) : Prop :=
  0 < soff c \/ forall x, In x (s_exp sp) -> sbase (x_full x) <= sbase c.

Lemma site_same : forall m top c sp, descending top (s_exp sp) -> placed sp c -> fits m sp -> apart m -> (N.to_nat top <= length m)%nat ->
  clear sp c -> site_at m c sp = reach_original_call_site c sp.
Proof.
  intros m top c [inp l tot] Hd Hp [Hf0 Hf] Ha Ht Hc. unfold site_at, reach_original_call_site, pointer. cbn [s_exp s_input s_total] in *.
  assert (E : reach_at m (address m (sbase c) + Z.of_N (soff c)) l = reach c l /\
    (fst (reach c l) = None -> sbase c = 0 /\ soff c + blen (stxt c) <= blen inp)).
  { revert top Hd Ht Hp Hf Hc. induction l as [|y l IH]; intros top Hd Ht Hp Hf Hc.
    - split; [reflexivity|]. intros _. destruct Hp as [H|(x & [] & _)]. exact H.
    - destruct Hd as [Hy Hd]. cbn [reach reach_at]. destruct (N.eq_dec (sbase c) (sbase (x_full y))) as [Eb|Nb].
      + assert (Ho : soff c <= blen (stxt (x_full y))).
        { destruct Hp as [[H _]|(x & Hx & H2 & H3)].
          - pose proof (descending_pos _ _ Hd). lia.
          - cbn [s_exp] in Hx. destruct Hx as [<-|Hx]; [lia|]. pose proof (descending_in _ _ _ Hd Hx). lia. }
        unfold ptr_in. rewrite Eb, N.eqb_refl. cbn [andb]. rewrite between_self by exact Ho.
        destruct (N.leb_spec (soff c) (blen (stxt (x_full y)))); [|lia]. split; [|discriminate]. f_equal. f_equal. lia.
      + assert (Hp' : placed (mkSpans inp l tot) c).
        { destruct Hp as [H|(x & [<-|Hx] & H2 & H3)]; [left; exact H|congruence|right; exists x; auto]. }
        assert (Hlt : sbase c < sbase (x_full y)).
        { destruct Hp' as [[H _]|(x & Hx & H2 & _)]; [rewrite H; eapply descending_pos; exact Hd|].
          cbn [s_exp] in Hx. pose proof (descending_in _ _ _ Hd Hx). lia. }
        assert (Hlen : soff c <= length_at m (sbase c)).
        { destruct Hp' as [[H H']|(x & Hx & H2 & H3)]; [rewrite H, Hf0; cbn [s_input] in H'; lia|].
          cbn [s_exp] in Hx. rewrite <- H2, (Hf x (or_intror Hx)). lia. }
        assert (Hpos : 0 < soff c) by (destruct Hc as [Hc|Hc]; [exact Hc|]; specialize (Hc y (or_introl eq_refl)); lia).
        rewrite (apart_between m (sbase c) (sbase (x_full y)) (soff c) _ Ha Hlt ltac:(lia) Hpos Hlen (Hf y (or_introl eq_refl))).
        unfold ptr_in. replace (sbase c =? sbase (x_full y)) with false by (symmetry; apply N.eqb_neq; lia). cbn [andb].
        apply (IH (sbase (x_full y)) Hd ltac:(lia) Hp').
        * intros x Hx. apply Hf. right. exact Hx.
        * left. exact Hpos. }
  destruct E as [E En]. rewrite E. destruct (reach c l) as [[i|] l']; [reflexivity|]. cbn [fst] in En. destruct (En eq_refl) as [Hb Ho].
  rewrite Hb. rewrite between_self by lia. unfold ptr_in. rewrite Hb. cbn [sbase stxt N.eqb andb].
  destruct (N.leb_spec (soff c) (blen inp)); [|lia]. f_equal. f_equal. lia.
Qed.

(** ** What is left by a call is not at the start of an allocation *)

Definition inside (s : slice) : Prop := 0 < soff s.

Lemma inside_sub : forall a b, sl_sub a b -> inside b -> inside a.
Proof. intros a b (p & q & _ & _ & H) Hb. unfold inside in *. lia. Qed.

Notation IInv := (Inv inside (fun _ => True)).

Lemma inside_closed : def_closed inside (fun _ => True).
Proof. intros ? ? ? ? ? ? ? ? ?; exact I. Qed.

Lemma inside_cs : forall cs, cs <> [] -> cs_in inside cs.
Proof. intros cs H. split; [exact H|]. exists (mkSlice 0 1 (92 :: cs)). split; [unfold inside; cbn; lia|]. exists [], []. cbn. rewrite app_nil_r. reflexivity. Qed.

Open Scope sm_scope.

(** The part of [parse_scripts] after the first sign. *)
Definition scripts_from (sub_first : bool) : P (option script) :=
      do first <- buf_len ;
      do a <- argc ;
      handle_arg handle_prim a ;;
      do second <- buf_len ;
      do nc <- peek ;
      (if (is_char 95 nc && negb sub_first) || (is_char 94 nc && sub_first) then
         drop1 ;;
         do a <- argc ;
         handle_arg handle_prim a ;;
         do nc <- peek ;
         if is_char 95 nc then fail EDoubleSubscript
         else if is_char 94 nc then fail EDoubleSuperscript
         else ret tt
       else if is_char 95 nc || is_char 94 nc then
         fail (if sub_first then EDoubleSubscript else EDoubleSuperscript)
       else ret tt) ;;
      do end_ <- buf_len ;
      do st <- get ;
      if Nat.eqb second end_ then
        if sub_first then ret (Some (EvScript STSub (i_pos st), first, second))
        else ret (Some (EvScript STSup (i_pos st), second, first))
      else
        if sub_first then ret (Some (EvScript STSubSup (i_pos st), first, second))
        else ret (Some (EvScript STSubSup (i_pos st), second, first)).

Lemma k_scripts_from : forall b, keeps IInv (scripts_from b) script_ok.
Proof.
  intros b. pose proof (k_handle_prim inside inside_sub (fun _ => True) inside_closed) as Hprim.
  unfold scripts_from. eapply k_bind; [apply k_buf_len|]. intros first _.
  eapply k_bind; [apply (k_argc inside inside_sub)|]. intros a Haa.
  eapply k_bind; [apply (k_handle_arg inside inside_sub _ _ Hprim); exact Haa|]. intros _ _.
  eapply k_bind; [apply k_buf_len|]. intros second _.
  eapply k_bind with (V := anything); [intros st Hi; cbn; split; [exact Hi|exact I]|]. intros nc _.
  eapply k_bind with (V := anything).
  { destruct (_ || _).
    - eapply k_bind; [apply (k_drop1 inside inside_sub)|]. intros _ _.
      eapply k_bind; [apply (k_argc inside inside_sub)|]. intros a2 Ha2.
      eapply k_bind; [apply (k_handle_arg inside inside_sub _ _ Hprim); exact Ha2|]. intros _ _.
      eapply k_bind with (V := anything); [intros st Hi; cbn; split; [exact Hi|exact I]|]. intros nc2 _.
      destruct (is_char 95 nc2); [apply k_fail|]. destruct (is_char 94 nc2); [apply k_fail|apply k_ret; exact I].
    - destruct (_ || _); [apply k_fail|apply k_ret; exact I]. }
  intros _ _. eapply k_bind; [apply k_buf_len|]. intros e_ _. eapply k_bind; [apply k_get|]. intros st _.
  destruct (Nat.eqb _ _); destruct b; apply k_ret; exact I.
Qed.

(** The instructions a call leaves: inside an allocation, or with nothing in them. *)
Definition fine (c : slice) : Prop := inside c \/ stxt c = [].

Definition at_rest (i : instr) : Prop := match i with ISub c _ => fine c | IEv _ => True end.

Lemma inside_tail : forall s c r, stxt s = c :: r -> inside (suffix_slice s r).
Proof. intros s c r H. unfold inside, suffix_slice. cbn [soff]. rewrite H. cbn [blen]. pose proof (clen_pos c). lia. Qed.

Lemma scripts_sign : forall st c r, i_skip st = false -> i_allow st = false -> stxt (i_content st) = c :: r -> c = 94 \/ c = 95 ->
  exists sl, inside sl /\ parse_scripts st = scripts_from (c =? 95) (set_content sl st).
Proof.
  intros st c r Hs Ha Ht Hc. exists (suffix_slice (suffix_slice (i_content st) (c :: r)) r). split; [eapply inside_tail; reflexivity|].
  unfold parse_scripts, bind at 1, get. rewrite Hs, Ha.
  assert (Et : trim_start (c :: r) = c :: r) by (destruct Hc as [-> | ->]; reflexivity).
  unfold bind at 1, ret at 1. unfold bind at 1, modify at 1. rewrite Ht, Et. unfold bind at 1, peek at 1. cbn [set_content i_content suffix_slice stxt].
  assert (Hp : is_char 94 (Some c) || is_char 95 (Some c) = true) by (destruct Hc as [-> | ->]; reflexivity).
  rewrite Hp. cbv zeta. unfold bind at 1, drop1 at 1, modify at 1. cbn [set_content i_content suffix_slice stxt tl is_char]. destruct st; reflexivity.
Qed.

Lemma inside_char : forall ctx st c r, stxt ctx = c :: r -> inside (i_content st) -> i_buf st = [] ->
  i_skip st = false -> i_allow st = false -> i_handling st = false -> forall o st',
  parse_atom (handle_char ctx) st = (Ok o, st') -> IInv st'.
Proof.
  intros ctx st c r Ht Hin Hb Hsk Hal Hha o st' H.
  assert (Hi : IInv st) by (split; [exact Hin|]; rewrite Hb; split; [constructor|exact I]).
  pose proof (k_parse_scripts inside inside_sub (fun _ => True) inside_closed) as Hps.
  assert (Hgo : forall m : P unit, keeps IInv m anything -> (m ;; parse_scripts) st = (Ok o, st') -> IInv st').
  { intros m Hm E. assert (Hk : keeps IInv (m ;; parse_scripts) script_ok) by (eapply k_bind; [exact Hm|intros; exact Hps]).
    destruct (Hk st Hi) as [H1 _]. rewrite E in H1. exact H1. }
  unfold parse_atom in H. destruct ((ctx_char (stxt ctx) =? 95) || (ctx_char (stxt ctx) =? 94)) eqn:Es.
  - assert (Hc : c = 94 \/ c = 95) by (rewrite Ht in Es; cbn [ctx_char] in Es; apply orb_true_iff in Es; rewrite !N.eqb_eq in Es; tauto).
    assert (E : handle_char ctx st = (Ok tt, set_content ctx (set_buf [IEv (EvBegin GNormal); IEv EvEnd] st))).
    { unfold handle_char, bind at 1, get. cbv zeta. rewrite Es, Ht, Hha. cbn [ctx_char].
      destruct Hc as [-> | ->]; cbn [N.eqb Pos.eqb]; unfold push_ev, push, bind, modify; destruct st; cbn in Hb; subst; reflexivity. }
    unfold bind in H. rewrite E in H.
    match type of H with parse_scripts ?s = _ => destruct (scripts_sign s c r Hsk Hal Ht Hc) as (sl & Hsl & E2) end.
    rewrite E2 in H. match type of H with scripts_from ?b ?s = _ => destruct (k_scripts_from b s) as [H1 _] end.
    + split; [exact Hsl|]. split; [|exact I]. repeat constructor.
    + rewrite H in H1. exact H1.
  - apply (Hgo (handle_char ctx)); [|exact H]. intros s0 Hs0.
    revert s0 Hs0. change (keeps IInv (handle_char ctx) anything). unfold handle_char. eapply k_bind; [apply k_get|]. intros s1 Hi1.
    cbv zeta. rewrite Es.
    destruct (_ =? 92); [apply k_panic|]. destruct (_ =? 37); [apply k_panic|].
    destruct (_ =? 36); [apply k_fail|]. destruct (_ =? 35); [apply k_fail|].
    destruct (_ =? 38).
    { destruct (i_align s1) as [[n m]|]; [|apply k_fail].
      destruct (_ && _); [|apply k_fail].
      eapply k_bind; [apply k_modify; intros ? [? ?]; split; assumption|]. intros _ _.
      apply k_push_ev. exact I. }
    destruct (_ =? 123).
    { eapply k_bind; [apply (k_groupc inside inside_sub)|]. intros g Hg. apply k_push. repeat constructor. exact Hg. }
    destruct (_ =? 125); [apply k_fail|].
    destruct (is_digit _) eqn:Ed.
    { eapply k_bind; [apply k_modify; intros; apply inv_content; [|assumption]|].
      - rewrite Ht in *. destruct (numeral_shape (i_handling s1) c r Ed) as (x & y & En & _). rewrite En. cbn [length skipn].
        unfold inside, suffix_slice. cbn [soff]. rewrite Ht. cbn [blen].
        assert (Hl : blen (skipn (length y) r) <= blen r).
        { rewrite <- (firstn_skipn (length y) r) at 2. rewrite blen_app. lia. }
        pose proof (clen_pos c). lia.
      - intros _ _. apply k_push_ev. rewrite Ht. apply numeral_shape. rewrite Ht in Ed. exact Ed. }
    apply k_push_ev. unfold char_event.
    repeat match goal with |- ev_ok (if ?b then _ else _) => destruct b end; try exact I.
    destruct (char_delimiter_map _) as [[d []]|]; exact I.
Qed.

Lemma inside_prim : forall cs st, cs <> [] -> inside (i_content st) -> i_buf st = [] -> forall r st',
  parse_atom (handle_prim cs) st = (r, st') -> IInv st'.
Proof.
  intros cs st Hcs Hin Hb r st' H.
  assert (Hi : IInv st) by (split; [exact Hin|]; rewrite Hb; split; [constructor|exact I]).
  assert (Hk : keeps IInv (parse_atom (handle_prim cs)) script_ok).
  { unfold parse_atom. eapply k_bind; [apply (k_handle_prim inside inside_sub (fun _ => True) inside_closed); apply inside_cs; exact Hcs|].
    intros; apply (k_parse_scripts inside inside_sub (fun _ => True) inside_closed). }
  destruct (Hk st Hi) as [H1 _]. rewrite H in H1. exact H1.
Qed.

(** ** One call of [parse] *)

Lemma clear_sub : forall sp a b, sl_sub a b -> clear sp b -> clear sp a.
Proof.
  intros sp a b (p & q & _ & Hb & Ho) [H|H]; [left; lia|right]. intros x Hx. rewrite Hb. apply H. exact Hx.
Qed.

Lemma clear_inner : forall sp m st, (forall J, def_closed (clear sp) J -> keeps (Inv (clear sp) J) m script_ok) -> clear sp (i_content st) -> i_buf st = [] ->
  clear sp (i_content (snd (m st))).
Proof.
  intros sp m st Hm Hc Hb. specialize (Hm (fun _ => True) ltac:(intros ? ? ? ? ? ? ? ? ?; exact I)).
  destruct (Hm st) as [(H1 & _) _]; [|exact H1]. split; [exact Hc|]. rewrite Hb. split; [constructor|exact I].
Qed.

Lemma length_at_app : forall m x b, (N.to_nat b < length m)%nat -> length_at (m ++ x) b = length_at m b.
Proof. intros m x b H. unfold length_at. rewrite app_nth1 by exact H. reflexivity. Qed.

Lemma length_at_last : forall m a n b, N.to_nat b = length m -> length_at (m ++ [(a, n)]) b = n.
Proof. intros m a n b H. unfold length_at. rewrite H, nth_middle. reflexivity. Qed.

Definition holds (m : memory) (sp : spans) (next : N) : Prop :=
  apart m /\ fits m sp /\ length m = N.to_nat next.

Lemma holds_store : forall al m sp next t, keeps_apart al -> descending next (s_exp sp) -> holds m sp next -> holds (store al m t) sp (next + 1).
Proof.
  intros al m sp next t Ha Hd (H1 & (H2 & H2') & H3). split; [apply Ha; exact H1|]. split.
  - pose proof (descending_pos _ _ Hd). split.
    + unfold store. rewrite length_at_app by lia. exact H2.
    + intros x Hx. unfold store. pose proof (descending_in _ _ _ Hd Hx). rewrite length_at_app by lia. apply H2'. exact Hx.
  - unfold store. rewrite app_length. cbn [length]. lia.
Qed.

Lemma token_none : forall s r, lex_token s = (Err EToken, r) -> r = [].
Proof.
  intros s r H. unfold lex_token in H. destruct (skip_blank false s) as [|c s'] eqn:E; [congruence|].
  destruct (c =? 92); [|discriminate]. destruct s' as [|x s']; [cbn in H; discriminate|].
  cbn [rhs_control_sequence] in H. destruct (is_alpha x); [|discriminate]. destruct (span_while is_alpha (x :: s')); discriminate.
Qed.

Lemma site_holds : forall m next c sp, descending next (s_exp sp) -> placed sp c -> holds m sp next -> clear sp c ->
  site_at m c sp = reach_original_call_site c sp.
Proof. intros m next c sp Hd Hp (H1 & H2 & H3) Hc. eapply site_same; try eassumption. lia. Qed.

Lemma parse_same : forall al, keeps_apart al -> forall f q m, descending (q_next q) (s_exp (q_spans q)) -> placed (q_spans q) (i_content (q_ist q)) ->
  sbase (i_content (q_ist q)) < q_next q -> i_buf (q_ist q) = [] -> defs_ok (i_macros (q_ist q)) ->
  i_skip (q_ist q) = false -> i_allow (q_ist q) = false -> i_handling (q_ist q) = false ->
  holds m (q_spans q) (q_next q) -> clear (q_spans q) (i_content (q_ist q)) ->
  exists m', parse_at al f q m = (parse f q, m') /\
    holds m' (q_spans (snd (parse f q))) (q_next (snd (parse f q))) /\
    clear (q_spans (snd (parse f q))) (i_content (q_ist (snd (parse f q)))) /\
    forall o, fst (parse f q) = Ok o -> fine (i_content (q_ist (snd (parse f q)))) /\ Forall at_rest (i_buf (q_ist (snd (parse f q)))).
Proof.
  intros al Hal. induction f as [|f IH]; intros q m Hd Hp Hlt Hb Hm Hsk Hall Hha Hh Hc.
  { exists m. split; [reflexivity|]. split; [exact Hh|]. split; [exact Hc|]. intros o E. discriminate. }
  rewrite parse_eq. cbn [parse_at]. set (c0 := i_content (q_ist q)) in *.
  pose proof (lex_token_suffix (stxt c0)) as Hs.
  assert (Cr : forall r, suffix r (stxt c0) -> clear (q_spans q) (suffix_slice c0 r)).
  { intros r Hr. eapply clear_sub; [apply sl_sub_suffix; exact Hr|exact Hc]. }
  assert (Hfine : forall st, IInv st -> fine (i_content st) /\ Forall at_rest (i_buf st)).
  { intros st (H1 & H2 & _). split; [left; exact H1|]. eapply Forall_impl; [|exact H2]. intros [e|s a] H; [exact I|left; exact H]. }
  destruct (lex_token (stxt c0)) as [[[cs|ctx]|e|p|] r] eqn:El; cbn [snd] in Hs.
  - destruct (lex_token_cs _ _ _ El) as (bk & w & _ & _ & Hcs & E).
    destruct (ctx_get (i_macros (q_ist q)) cs) as [d|] eqn:Em.
    + destruct (expand_definition d r) as [[txt k]|e|p|] eqn:Ee.
      * pose proof (holds_store al m (q_spans q) (q_next q) txt Hal Hd Hh) as Hst.
        destruct (_ || _).
        { exists (store al m txt). split; [reflexivity|]. cbn [fst snd q_spans q_next q_ist set_ist set_content i_content]. split; [exact Hst|].
          split; [apply Cr; exact Hs|]. intros o Eo. discriminate. }
        set (new := mkSlice (q_next q) 0 txt). set (orig := suffix_slice c0 (trim_start (stxt c0))).
        assert (Po : placed (add_total (blen txt) (q_spans q)) orig).
        { assert (Hpo : placed (q_spans q) orig) by (eapply placed_sub; [apply sl_sub_suffix; apply suffix_trim|exact Hp]). exact Hpo. }
        assert (Ead : add_span_at (store al m txt) new orig (blen cs + k + 1) (add_total (blen txt) (q_spans q)) =
          add_span new orig (blen cs + k + 1) (add_total (blen txt) (q_spans q))).
        { unfold add_span_at, add_span. rewrite (site_holds _ (q_next q + 1)); [reflexivity| |exact Po|exact Hst|].
          - eapply descending_weaken; [|exact Hd]. lia.
          - apply (Cr _ (suffix_trim (stxt c0))). }
        rewrite Ead. destruct (reach_placed (q_next q) orig (add_total (blen txt) (q_spans q)) Hd Po) as (l & u & Hu & Er & Hk).
        unfold add_span. rewrite Er.
        destruct (descending_app u l (q_next q)) as (t & Ht1 & Ht2); [rewrite <- Hu; exact Hd|].
        match goal with |- context [parse f ?x] => set (q2 := x) end.
        specialize (IH q2 (store al m txt)).
        unfold q2 in IH. cbn [q_ist q_spans q_next set_content i_content i_buf i_macros i_skip i_allow i_handling s_exp s_input x_full sbase] in IH. fold q2 in IH.
        apply IH; try assumption.
        -- cbn [descending x_full]. split; [unfold new; cbn [sbase]; lia|]. eapply descending_weaken; [|exact Ht2]. unfold new. cbn [sbase]. lia.
        -- right. eexists. split; [left; reflexivity|]. cbn [x_full]. split; [reflexivity|]. unfold new. cbn [soff stxt]. lia.
        -- unfold new. cbn [sbase]. lia.
        -- destruct Hst as (H1 & [H2 H3] & H4). split; [exact H1|]. split; [|exact H4]. split; [exact H2|].
           intros x [<-|Hx]; cbn [x_full].
           ++ unfold new, store. cbn [sbase stxt]. apply length_at_last. destruct Hh as (_ & _ & Hl). lia.
           ++ apply H3. change (s_exp (q_spans q)) with (s_exp (add_total (blen txt) (q_spans q))). rewrite Hu. apply in_or_app. right. exact Hx.
        -- right. intros x [<-|Hx]; cbn [x_full]; [lia|]. unfold new. cbn [sbase]. pose proof (descending_in _ _ _ Ht2 Hx). lia.
      * exists m. split; [reflexivity|]. split; [exact Hh|]. split; [apply Cr; exact Hs|]. intros o Eo. discriminate.
      * exists m. split; [reflexivity|]. split; [exact Hh|]. split; [apply Cr; exact Hs|]. intros o Eo. discriminate.
      * exists m. split; [reflexivity|]. split; [exact Hh|]. split; [apply Cr; exact Hs|]. intros o Eo. discriminate.
    + exists m. split; [reflexivity|]. unfold run_inner. cbn [set_ist q_ist].
      set (st1 := set_content (suffix_slice c0 r) (q_ist q)).
      assert (Hcl : clear (q_spans q) (i_content (snd (parse_atom (handle_prim cs) st1)))).
      { apply clear_inner; [|apply Cr; exact Hs|exact Hb]. intros J HJ. unfold parse_atom.
        eapply k_bind; [apply (k_handle_prim (clear (q_spans q)) (clear_sub (q_spans q)) J HJ)|intros; apply (k_parse_scripts (clear (q_spans q)) (clear_sub (q_spans q)) J HJ)].
        split; [exact Hcs|]. exists c0. split; [exact Hc|]. exists bk, (w ++ r)%list. rewrite E. reflexivity. }
      destruct (parse_atom (handle_prim cs) st1) as [rr st'] eqn:Ep. cbn [fst snd set_ist q_ist q_spans q_next] in *.
      split; [exact Hh|]. split; [exact Hcl|]. intros o _. apply Hfine. eapply (inside_prim cs st1); [exact Hcs| |exact Hb|exact Ep].
      unfold st1, inside. cbn [set_content i_content suffix_slice soff]. rewrite E. rewrite blen_app. cbn [blen]. rewrite !blen_app. pose proof (clen_pos 92). lia.
  - destruct (lex_token_chr _ _ _ El) as (bk & c & _ & -> & E & _).
    exists m. split; [reflexivity|]. unfold run_inner. cbn [set_ist q_ist].
    set (st1 := set_content (suffix_slice c0 r) (q_ist q)).
    assert (Hcl : clear (q_spans q) (i_content (snd (parse_atom (handle_char (suffix_slice c0 (c :: r))) st1)))).
    { apply clear_inner; [|apply Cr; exact Hs|exact Hb]. intros J HJ. unfold parse_atom.
      eapply k_bind; [apply (k_handle_char (clear (q_spans q)) (clear_sub (q_spans q)) J)|intros; apply (k_parse_scripts (clear (q_spans q)) (clear_sub (q_spans q)) J HJ)].
      apply Cr. rewrite E. apply suffix_app. }
    destruct (parse_atom (handle_char (suffix_slice c0 (c :: r))) st1) as [rr st'] eqn:Ep. cbn [fst snd set_ist q_ist q_spans q_next] in *.
    split; [exact Hh|]. split; [exact Hcl|]. intros o Eo. subst rr. apply Hfine.
    eapply (inside_char (suffix_slice c0 (c :: r)) st1 c r); try eassumption; [reflexivity|].
    unfold st1, inside. cbn [set_content i_content suffix_slice soff]. rewrite E. rewrite blen_app. cbn [blen]. pose proof (clen_pos c). lia.
  - destruct e; exists m; (split; [reflexivity|]); (split; [exact Hh|]); (split; [apply Cr; exact Hs|]); intros o Eo; try discriminate.
    cbn [snd q_ist set_ist set_content i_content i_buf]. rewrite Hb. split; [|constructor]. right. cbn [suffix_slice stxt]. eapply token_none. exact El.
  - exists m. split; [reflexivity|]. split; [exact Hh|]. split; [exact Hc|]. intros o Eo. discriminate.
  - exists m. split; [reflexivity|]. split; [exact Hh|]. split; [exact Hc|]. intros o Eo. discriminate.
Qed.

(** ** The run *)

Definition tidy (p : parser) : Prop :=
  Forall at_rest (p_stack p) \/ (s_exp (p_spans p) = [] /\ exists c al, p_stack p = [ISub c al]).

Lemma next_step_at_eq : forall a p m c al s, p_stack p = ISub c al :: s -> is_nil (trim_start (stxt c)) = false ->
  next_step_at a p m =
    let '(r, q, m') := parse_at a parse_fuel (of_parser p c al) m in
    match r with
    | Err e => let (o, sp) := new_error_at m' e (i_content (q_ist q)) (q_spans q) in
        match o with
        | Ok pe => (OItem (ItError pe), mkParser (ISub (i_content (q_ist q)) (i_align (q_ist q)) :: s) (i_buf (q_ist q)) (i_macros (q_ist q)) sp (q_next q) (q_alloc q), m')
        | Panic x => (OPanic x, to_parser (ISub (i_content (q_ist q)) (i_align (q_ist q)) :: s) (i_buf (q_ist q)) q, m')
        | _ => (OFuel, to_parser (ISub (i_content (q_ist q)) (i_align (q_ist q)) :: s) (i_buf (q_ist q)) q, m')
        end
    | _ => (after s (r, q), m')
    end.
Proof.
  intros a p m c al s Hs Hn. unfold next_step_at. rewrite Hs, Hn. generalize (parse_at a parse_fuel (of_parser p c al) m). intros [[r q] m'].
  destruct r as [[[[e sub] sup]|]|e|x|]; cbn [after]; try reflexivity.
  - destruct (order_scripts sub sup (i_buf (q_ist q))); reflexivity.
Qed.

Lemma step_same : forall al, keeps_apart al -> forall p m, in_place p -> tidy p -> holds m (p_spans p) (p_next p) ->
  exists m', next_step_at al p m = (next_step p, m') /\
    match next_step p with
    | (OItem (ItEvent _), p') | (OCont, p') => tidy p' /\ holds m' (p_spans p') (p_next p')
    | _ => True
    end.
Proof.
  intros al Hal p m Hpl Ht Hh. destruct Hpl as (Hd & (b & Hs) & Hm & Hb & Ho). destruct (p_stack p) as [|[e|c a] s] eqn:Es.
  - exists m. unfold next_step_at, next_step. rewrite Es. split; [reflexivity|exact I].
  - exists m. unfold next_step_at, next_step. rewrite Es. split; [reflexivity|]. split; [|exact Hh].
    left. destruct Ht as [Ht|(_ & c & al0 & Ht)]; [|congruence]. rewrite Es in Ht. inversion Ht; subst. assumption.
  - cbn [stacked] in Hs. destruct Hs as (Hs1 & Hs2 & Hs3). destruct (is_nil (trim_start (stxt c))) eqn:En.
    { exists m. unfold next_step_at, next_step. rewrite Es, En. split; [reflexivity|]. split; [|exact Hh].
      left. cbn [p_stack]. destruct Ht as [Ht|(_ & c' & al0 & Ht)].
      - rewrite Es in Ht. inversion Ht; subst. assumption.
      - rewrite Es in Ht. injection Ht as _ _ ->. constructor. }
    assert (Hcl : clear (p_spans p) c /\ Forall at_rest s).
    { destruct Ht as [Ht|(Hx & c' & al0 & Ht)]; rewrite Es in Ht.
      - inversion Ht as [|? ? Hc Hss]; subst. split; [|exact Hss]. destruct Hc as [Hc|Hc]; [left; exact Hc|]. rewrite Hc in En. discriminate.
      - injection Ht as _ _ ->. split; [|constructor]. right. rewrite Hx. intros x []. }
    destruct Hcl as [Hcl Hfs].
    destruct (parse_same al Hal parse_fuel (of_parser p c a) m Hd Hs2 (placed_base _ _ _ Hd Hs2) Hb Hm eq_refl eq_refl eq_refl Hh Hcl) as (m' & E & Hh' & Hc' & Hf').
    pose proof (parse_places parse_fuel (of_parser p c a) Hd Hs2 (placed_base _ _ _ Hd Hs2) Hb Hm) as Hp.
    exists m'. rewrite (next_step_at_eq al p m c a s Es En). rewrite E. rewrite next_step_eq, Es, En.
    revert Hp Hh' Hc' Hf'. clear E. generalize (parse parse_fuel (of_parser p c a)). intros [r q] Hp Hh' Hc' Hf'. cbn [fst snd] in *.
    destruct r as [[[[e sub] sup]|]|e|x|].
    + split; [reflexivity|]. cbn [after]. destruct (Hf' _ eq_refl) as [F1 F2]. destruct (order_scripts sub sup (i_buf (q_ist q))) as [l|e'|x|] eqn:Eo; try exact I.
      split; [|exact Hh']. left. cbn [to_parser p_stack]. constructor; [exact I|]. rewrite Forall_forall in F2.
      apply Forall_app. split; [|apply Forall_app; split; [|constructor; [exact F1|exact Hfs]]]; apply Forall_forall; intros x Hx; apply F2.
      * eapply in_firstn. exact Hx.
      * eapply order_in; eassumption.
    + split; [reflexivity|]. cbn [after]. destruct (Hf' _ eq_refl) as [F1 F2]. split; [|exact Hh']. left. cbn [to_parser p_stack].
      apply Forall_app. split; [exact F2|]. constructor; [exact F1|exact Hfs].
    + assert (En' : new_error_at m' e (i_content (q_ist q)) (q_spans q) = new_error e (i_content (q_ist q)) (q_spans q)).
      { unfold new_error_at, new_error. rewrite (site_holds m' (q_next q)); [reflexivity|apply Hp|apply Hp|exact Hh'|exact Hc']. }
      rewrite En'. cbn [after]. destruct (new_error e (i_content (q_ist q)) (q_spans q)) as [[pe|e'|x|] sp]; split; try reflexivity; exact I.
    + split; [reflexivity|exact I].
    + split; [reflexivity|exact I].
Qed.

(** The items up to and including the first error. *)
Fixpoint upto_error (l : list item) : list item :=
  match l with
  | [] => []
  | ItError e :: _ => [ItError e]
  | ItEvent e :: l' => ItEvent e :: upto_error l'
  end.

Lemma run_same : forall al, keeps_apart al -> forall n p m l o q, in_place p -> tidy p -> holds m (p_spans p) (p_next p) ->
  run n p = (l, o, q) ->
  upto_error (fst (run_at al n p m)) = upto_error l /\ (error_free l -> run_at al n p m = (l, o)).
Proof.
  intros al Hal. induction n as [|n IH]; intros p m l o q Hp Ht Hh H; cbn [run run_at] in *.
  { injection H as <- <- <-. split; [reflexivity|]. reflexivity. }
  pose proof (place_step p Hp) as Hn. destruct (step_same al Hal p m Hp Ht Hh) as (m' & E & Hk). rewrite E.
  destruct (next_step p) as [[[e|pe]| | |x| ] p'] eqn:En.
  - destruct (run n p') as [[l' o'] q'] eqn:Er. injection H as <- <- <-. destruct (IH p' m' l' o' q' Hn (proj1 Hk) (proj2 Hk) Er) as [I1 I2].
    destruct (run_at al n p' m') as [l2 o2]. cbn [fst] in *. split; [cbn [upto_error]; rewrite I1; reflexivity|].
    intros Hl. specialize (I2 Hl). congruence.
  - destruct (run n p') as [[l' o'] q'] eqn:Er. injection H as <- <- <-. destruct (run_at al n p' m') as [l2 o2]. split; [reflexivity|]. intros Hl. discriminate.
  - apply (IH p' m' l o q Hn (proj1 Hk) (proj2 Hk) H).
  - injection H as <- <- <-. split; reflexivity.
  - injection H as <- <- <-. split; reflexivity.
  - injection H as <- <- <-. split; reflexivity.
Qed.

Theorem addresses_same : forall al z n input l o q, keeps_apart al -> run n (new_parser input) = (l, o, q) ->
  upto_error (fst (run_input_at al z n input)) = upto_error l /\ (error_free l -> run_input_at al z n input = (l, o)).
Proof.
  intros al z n input l o q Hal H. apply (run_same al Hal n (new_parser input) [(z, blen input)] l o q); [apply place_new| | |exact H].
  - right. split; [reflexivity|]. eexists. eexists. reflexivity.
  - split; [apply apart_one|]. split; [|reflexivity]. split; [reflexivity|intros x []].
Qed.

(** ** Two allocators *)

(** The next text is put just below all there is. *)
Definition downward : allocator := fun m n => (fold_right Z.min 0%Z (map fst m) - Z.of_N n)%Z.

Lemma min_le : forall (m : memory) d x, In x m -> (fold_right Z.min d (map fst m) <= fst x)%Z.
Proof.
  induction m as [|y m IH]; intros d x H; [contradiction|]. destruct H as [<-|H]; cbn [map fold_right]; [lia|]. specialize (IH d x H). lia.
Qed.

Lemma downward_apart : keeps_apart downward.
Proof.
  intros m n Ha i j Hij. rewrite app_length in Hij. cbn [length] in Hij. assert (Hi : (i < length m)%nat) by lia. rewrite (app_nth1 m _ _ Hi).
  destruct (Nat.eq_dec j (length m)) as [->|Hj].
  - rewrite nth_middle. destruct (nth i m (0%Z, 0)) as [a k] eqn:E. left. unfold downward.
    pose proof (min_le m 0%Z (nth i m (0%Z, 0)) (nth_In _ _ Hi)) as H. rewrite E in H. cbn [fst] in H. lia.
  - rewrite app_nth1 by lia. apply Ha. lia.
Qed.

(** The next text is put just above the newest one. *)
Definition upward : allocator := fun m _ => let (a, n) := last m (0%Z, 0) in (a + Z.of_N n)%Z.

Definition shows_addresses : str := lit "\def\a{{\b}\frac}\def\b{x}\a".

(** Downward the context of the error is the right one. With texts that begin
    where an older one ends the pointer comparison picks the older one. *)
Lemma downward_right : fst (run_input_at downward 5000%Z 40 shows_addresses) = fst (fst (run 40 (new_parser shows_addresses))).
Proof. vm_compute. reflexivity. Qed.

Lemma upward_wrong : upto_error (fst (run_input_at upward 5000%Z 40 shows_addresses)) <> upto_error (fst (fst (run 40 (new_parser shows_addresses)))).
Proof. vm_compute. congruence. Qed.

Theorem upward_differs : exists al z n input l o q, run n (new_parser input) = (l, o, q) /\
  upto_error (fst (run_input_at al z n input)) <> upto_error l.
Proof.
  exists upward, 5000%Z, 40%nat, shows_addresses. pose proof upward_wrong as H.
  destruct (run 40 (new_parser shows_addresses)) as [[l o] q]. exists l, o, q. split; [reflexivity|exact H].
Qed.

Theorem placements_same : forall al al' z z' n input, keeps_apart al -> keeps_apart al' ->
  upto_error (fst (run_input_at al z n input)) = upto_error (fst (run_input_at al' z' n input)).
Proof.
  intros al al' z z' n input H H'. destruct (run n (new_parser input)) as [[l o] q] eqn:E.
  rewrite (proj1 (addresses_same al z n input l o q H E)), (proj1 (addresses_same al' z' n input l o q H' E)). reflexivity.
Qed.
