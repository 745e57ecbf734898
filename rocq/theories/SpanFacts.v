(** * SpanFacts: the stack of expansions and the context of errors. *)

From Coq Require Import List NArith ZArith Bool Lia Arith.
From Verif Require Import Base Float32 Event Tables Prim PrimTable Lex Macros Primitives Spans Parser
  SpecNum SpecLex LexNum FloorFacts Terminate SimRun.
Import ListNotations.
Open Scope N_scope.

Strategy 1000 [parse parse_fuel].

(** ** The context of an error *)

Lemma boundary_split : forall s i, boundary s i -> exists a b, s = a ++ b /\ blen a = i /\ split_bytes i s = Some (a, b).
Proof. intros s i (a & b & -> & <-). exists a, b. split; [reflexivity|]. split; [reflexivity|]. apply split_bytes_app. Qed.

Lemma boundary_rest : forall a b i, boundary (a ++ b) i -> blen a <= i -> boundary b (i - blen a).
Proof.
  intros a b i (x & y & E & <-) Hle. revert x E Hle. induction a as [|c a IH]; intros x E Hle.
  - cbn. rewrite N.sub_0_r. exists x, y. auto.
  - destruct x as [|d x]; cbn [blen] in Hle; [pose proof (clen_pos c); cbn in Hle; lia|]. cbn [app] in E. injection E as <- E.
    cbn [blen]. destruct (IH x E) as (u & v & -> & Hu); [lia|]. exists u, v. split; [reflexivity|]. lia.
Qed.

Lemma byte_range_ok : forall s lo hi, boundary s lo -> boundary s hi -> lo <= hi ->
  exists a t b, byte_range lo hi s = Some t /\ s = a ++ t ++ b /\ blen a = lo /\ blen t = hi - lo.
Proof.
  intros s lo hi Hlo Hhi Hle. destruct (boundary_split s lo Hlo) as (a & b & -> & Ha & E).
  apply boundary_rest in Hhi; [|lia]. rewrite Ha in Hhi. destruct (boundary_split b (hi - lo) Hhi) as (t & c & -> & Ht & E2).
  exists a, t, c. unfold byte_range. destruct (N.ltb_spec hi lo); [lia|]. rewrite E, E2. auto.
Qed.

Lemma floor_mono : forall s i j, i <= j -> exists a b, floor_char_boundary s i = Some a /\ floor_char_boundary s j = Some b /\
  boundary s a /\ boundary s b /\ a <= b.
Proof.
  intros s i j H. destruct (floor_greatest s i) as (a & Ea & Ba & La & Ga), (floor_greatest s j) as (b & Eb & Bb & Lb & Gb).
  exists a, b. repeat split; auto. apply Gb; [exact Ba|lia].
Qed.

Lemma floor_mono_min : forall s i j, i <= j -> exists a b, floor_char_boundary s i = Some a /\
  floor_char_boundary s (N.min j (blen s)) = Some b /\ boundary s a /\ boundary s b /\ a <= b.
Proof.
  intros s i j H. destruct (floor_greatest s i) as (a & Ea & Ba & La & Ga), (floor_greatest s (N.min j (blen s))) as (b & Eb & Bb & Lb & Gb).
  exists a, b. repeat split; auto. apply Gb; [exact Ba|]. apply boundary_le in Ba. lia.
Qed.

Definition ordered (x : espan) : Prop := x_start x <= x_end x.

Lemma context_ok : forall input l lo hi,
  Forall ordered l -> lo <= hi ->
  (let t := match l with x :: _ => stxt (x_full x) | [] => input end in boundary t lo /\ boundary t hi) ->
  exists t, context_loop input lo hi l = Ok t.
Proof.
  intros input. induction l as [|x l IH]; intros lo hi Ho Hle [Hlo Hhi]; cbn [context_loop].
  - destruct (byte_range_ok _ _ _ Hlo Hhi Hle) as (a & t & b & -> & _). eauto.
  - inversion Ho as [|? ? Hx Hl]; subst. unfold ordered in Hx.
    set (nxt := match l with y :: _ => stxt (x_full y) | [] => input end) in *.
    destruct (x_len x <? lo).
    + destruct (floor_mono_min nxt (lo + x_start x) (x_end x + hi)) as (a & b & -> & -> & Ha & Hb & Hab); [lia|].
      apply IH; auto.
    + destruct (byte_range_ok _ _ _ Hlo Hhi Hle) as (u & t & v & -> & _).
      destruct (floor_mono nxt (x_start x - context_size) (x_end x + context_size)) as (a & b & -> & -> & Ha & Hb & Hab); [unfold context_size; lia|].
      destruct (IH a b Hl Hab) as [r ->]; [split; assumption|]. eauto.
Qed.

Lemma reach_suffix : forall p l, exists u, l = u ++ snd (reach p l).
Proof.
  intros p. induction l as [|x l [u IH]]; [exists []; reflexivity|]. cbn [reach]. destruct (ptr_in p (x_full x)); [exists []; reflexivity|].
  exists (x :: u). cbn [app]. f_equal. exact IH.
Qed.

Lemma reach_call_suffix : forall p s, exists u, s_exp s = u ++ s_exp (snd (reach_original_call_site p s)).
Proof.
  intros p s. unfold reach_original_call_site. destruct (reach_suffix p (s_exp s)) as [u Hu]. exists u.
  destruct (reach p (s_exp s)) as [[i|] l]; [exact Hu|]. destruct (ptr_in p _); exact Hu.
Qed.

(** An error is built for every place, unless the place lies in no text known. *)
Theorem new_error_ok : forall e place s, Forall ordered (s_exp s) ->
  (exists pe s', new_error e place s = (Ok pe, s') /\ pe_kind pe = e) \/
  (exists s', new_error e place s = (Panic PAssert, s') /\ fst (reach_original_call_site place s) = Panic PAssert).
Proof.
  intros e place s Ho. unfold new_error. destruct (reach_call_suffix place s) as [u Hu].
  pose proof (reach_never place s) as Hr.
  assert (Hp : forall y, fst (reach_original_call_site place s) = Panic y -> y = PAssert).
  { intros y Hy. unfold reach_original_call_site in Hy. destruct (reach place (s_exp s)) as [[i|] l]; [discriminate|].
    destruct (ptr_in _ _); cbn in Hy; congruence. }
  destruct (reach_original_call_site place s) as [[i|x|x|] s1]; cbn [fst snd] in *; try contradiction.
  - left. set (first := match s_exp s1 with x :: _ => _ | [] => _ end).
    destruct (floor_mono first (i - context_size) (i + context_size)) as (a & b & -> & -> & Ha & Hb & Hab); [unfold context_size; lia|].
    rewrite Hu in Ho. apply Forall_app in Ho as [_ Ho].
    destruct (context_ok (s_input s1) (s_exp s1) a b Ho Hab (conj Ha Hb)) as [t ->]. eauto.
  - right. rewrite (Hp x eq_refl). eauto.
Qed.

(** ** The invariant of the stack *)

Definition spans_ok (s : spans) : Prop := Forall ordered (s_exp s) /\ (length (s_exp s) <= 64)%nat.

Lemma add_span_ok : forall new orig len s r s', Forall ordered (s_exp s) -> add_span new orig len s = (r, s') ->
  Forall ordered (s_exp s') /\ (length (s_exp s') <= S (length (s_exp s)))%nat.
Proof.
  intros new orig len s r s' Ho H. unfold add_span in H. destruct (reach_call_suffix orig s) as [u Hu].
  rewrite Hu in Ho. rewrite Hu, app_length. apply Forall_app in Ho as [_ Ho].
  destruct (reach_original_call_site orig s) as [[i|x|x|] s1]; cbn [snd] in *; injection H as <- <-; cbn [s_exp].
  - split; [constructor; [unfold ordered; cbn; lia|exact Ho]|]. cbn [length]. lia.
  - split; [exact Ho|lia].
  - split; [exact Ho|lia].
  - split; [exact Ho|lia].
Qed.

Lemma parse_spans : forall f q, spans_ok (q_spans q) -> spans_ok (q_spans (snd (parse f q))).
Proof.
  induction f as [|f IH]; intros q H; [exact H|]. rewrite parse_eq.
  destruct (lex_token (stxt (i_content (q_ist q)))) as [[[cs|ctx]|e|p|] r]; try exact H.
  - destruct (ctx_get (i_macros (q_ist q)) cs) as [d|]; [|unfold run_inner; destruct (parse_atom _ _); exact H].
    destruct (expand_definition d r) as [[txt k]|e|p|]; try exact H.
    destruct (N.leb_spec max_expansion_depth (N.of_nat (length (s_exp (q_spans q))))) as [Hd|Hd]; [exact H|]. cbn [orb].
    destruct (_ <=? _); [exact H|].
    destruct (add_span _ _ _ (add_total (blen txt) (q_spans q))) as [ra sp] eqn:Ea. apply add_span_ok in Ea; [|apply H]. cbn [add_total s_exp] in Ea.
    assert (Hsp : spans_ok sp). { destruct Ea as [E1 E2]. split; [exact E1|]. unfold max_expansion_depth in Hd. lia. }
    destruct ra as [[]|?|?|]; try exact Hsp. apply IH. exact Hsp.
  - unfold run_inner. destruct (parse_atom _ _). exact H.
  - destruct e; exact H.
Qed.

Lemma after_spans : forall s x, spans_ok (q_spans (snd x)) -> spans_ok (p_spans (snd (after s x))).
Proof.
  intros s [r q] H. cbn [snd] in H. unfold after. destruct r as [[[[e n] m]|]|e|p|]; try exact H.
  - destruct (order_scripts _ _ _); exact H.
  - destruct (new_error_ok e (i_content (q_ist q)) (q_spans q) (proj1 H)) as [(pe & s' & E & _)|(s' & E & _)]; rewrite E; [|exact H].
    cbn [snd p_spans]. unfold new_error in E. destruct (reach_call_suffix (i_content (q_ist q)) (q_spans q)) as [u Hu].
    destruct (reach_original_call_site _ _) as [[i|?|?|] s1]; cbn [snd] in Hu; try discriminate.
    assert (s' = s1). { destruct (floor_char_boundary _ _); [|discriminate]. destruct (floor_char_boundary _ _); [|discriminate].
      destruct (context_loop _ _ _ _); try discriminate. congruence. }
    subst s'. destruct H as [H1 H2]. rewrite Hu in H1, H2. rewrite app_length in H2. apply Forall_app in H1 as [_ H1]. split; [exact H1|lia].
Qed.

Lemma step_spans : forall p, spans_ok (p_spans p) -> spans_ok (p_spans (snd (next_step p))).
Proof.
  intros p H. rewrite next_step_eq. destruct (p_stack p) as [|[e|c al] s]; [exact H|exact H|]. destruct (is_nil _); [exact H|].
  apply after_spans. apply parse_spans. exact H.
Qed.

Lemma run_spans : forall n p, spans_ok (p_spans p) -> spans_ok (p_spans (parser_of (run n p))).
Proof.
  induction n as [|n IH]; intros p H; [exact H|]. cbn [run]. apply step_spans in H.
  destruct (next_step p) as [[i| | |x| ] p']; try exact H.
  - specialize (IH p' H). destruct (run n p') as [[l o] q]. exact IH.
  - apply IH. exact H.
Qed.
