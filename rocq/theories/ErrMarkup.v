(** * ErrMarkup: errors in the stream, and the markup. *)

From Coq Require Import List NArith ZArith Bool Lia.
From Verif Require Import Base Float32 Event Tables Prim PrimTable Lex Macros Primitives Spans Parser Mathml
  PrimFacts Order Api SpecEvent SpecStream SpecInput SpecClean SpecXml XmlFacts RenderFacts SpanFacts ErrContext
  RenderTree RenderDoc RenderProps Terminate FineRun Whole FineInput SpecMessage OverRun.
Import ListNotations.
Open Scope N_scope.

Lemma push_items_document : forall st cfg is, well_formed (map as_event is) -> Forall (fine (Some st)) (map as_event is) ->
  note_clean (Some st) cfg = true ->
  exists out, push_mathml cfg [] is = Ok out /\ document (mkOpts st false) out.
Proof.
  intros st cfg is H1 H2 H3.
  destruct (push_items_spec (mkRopts (Some st) (mkOpts st false)) cfg [] is H1 H2) as (out & l & E & R & B); [discriminate|exact H3|].
  exists out. split; [exact E|]. exists (math_atts cfg), l. split; [exact R|exact B].
Qed.

Lemma push_items_strict : forall st cfg is, well_formed (map as_event is) -> Forall (fine (Some st)) (map as_event is) ->
  note_clean (Some st) cfg = true -> steady start_frames (map as_event is) = true ->
  exists out, push_mathml cfg [] is = Ok out /\ document (mkOpts st true) out.
Proof.
  intros st cfg is H1 H2 H3 H4.
  destruct (push_items_spec (mkRopts (Some st) (mkOpts st true)) cfg [] is H1 H2) as (out & l & E & R & B); [intros _; exact H4|exact H3|].
  exists out. split; [exact E|]. exists (math_atts cfg), l. split; [exact R|exact B].
Qed.

(** ** The text of an error *)

Definition okc (c : char) : bool := valid_char c && text_char c.
Definition oks (s : str) : bool := forallb okc s.

Lemma oks_app : forall a b, oks (a ++ b) = oks a && oks b.
Proof. intros a b. apply forallb_app. Qed.
Lemma oks_repeat : forall c n, okc c = true -> oks (repeat c n) = true.
Proof. intros c n H. induction n as [|n IH]; [reflexivity|]. cbn. now rewrite H. Qed.
Lemma oks_removelast : forall s, oks s = true -> oks (removelast s) = true.
Proof.
  induction s as [|c s IH]; intro H; [reflexivity|]. cbn in H. apply andb_prop in H as [H1 H2]. destruct s as [|d s]; [reflexivity|].
  change (removelast (c :: d :: s)) with (c :: removelast (d :: s)). cbn [oks forallb]. rewrite H1. exact (IH H2).
Qed.

Lemma oks_dec : forall f n, oks (n_dec_fuel f n) = true.
Proof.
  assert (A : forall d, d < 10 -> oks [48 + d] = true).
  { intros d Hd. cbn [oks forallb]. unfold okc, valid_char, text_char. rewrite andb_true_r. apply andb_true_intro. split.
    - apply orb_true_iff. left. apply N.ltb_lt. lia.
    - apply negb_true_iff. rewrite !(proj2 (N.eqb_neq _ _)) by lia. reflexivity. }
  induction f as [|f IH]; intro n; [reflexivity|]. cbn [n_dec_fuel]. destruct (N.ltb_spec n 10); [now apply A|].
  rewrite oks_app, IH. cbn [andb]. apply A. apply N.mod_lt. discriminate.
Qed.

Lemma oks_message : forall e, oks (error_message e) = true.
Proof.
  destruct e; try (vm_compute; reflexivity); cbn [error_message]; [|rewrite !oks_app; unfold n_dec; rewrite !oks_dec; reflexivity..].
  match goal with k : option gkind |- _ => destruct k as [k|] end; [|vm_compute; reflexivity].
  rewrite !oks_app. assert (oks (closing_str k) = true) as -> by (destruct k; repeat match goal with b : bool |- _ => destruct b | m : matrix_type |- _ => destruct m end; vm_compute; reflexivity).
  reflexivity.
Qed.

Lemma oks_lines : forall s, oks s = true -> Forall (fun l => oks l = true) (str_lines s).
Proof.
  intros s H. unfold str_lines. apply Forall_map.
  assert (A : Forall (fun l => oks l = true) (lines_of s)).
  { induction s as [|c s IH]; [constructor|]. cbn in H. apply andb_prop in H as [H1 H2]. specialize (IH H2). cbn [lines_of].
    destruct (c =? 10); [constructor; [cbn; now rewrite H1|exact IH]|].
    inversion IH as [|p ps Hp Hps]; subst; (constructor; [|]); cbn [oks forallb]; rewrite ?H1; auto. }
  eapply Forall_impl; [|exact A]. intros l Hl. unfold chomp. destruct (ends_with_char 10 l); [|exact Hl].
  destruct (ends_with_char 13 _); [apply oks_removelast|]; now apply oks_removelast.
Qed.

Lemma oks_context : forall s f p, oks s = true -> oks (context_str s f p) = true.
Proof.
  intros s f p H. unfold context_str. pose proof (oks_lines s H) as L. destruct (str_lines s) as [|l ls].
  - rewrite !oks_app, !oks_repeat by reflexivity. destruct f; [rewrite !oks_app, !oks_repeat by reflexivity|]; reflexivity.
  - inversion L as [|? ? L1 L2]; subst. rewrite !oks_app, !oks_repeat by reflexivity. rewrite L1.
    assert (oks (flat_map (fun l => [9474; 32] ++ l ++ [10]) ls) = true) as ->.
    { clear - L2. induction L2 as [|x ls H _ IH]; [reflexivity|]. cbn [flat_map]. rewrite !oks_app, H, IH. reflexivity. }
    destruct f, p; rewrite ?oks_app, ?oks_repeat by reflexivity; reflexivity.
Qed.

(** The text of each error of a text that defines nothing and has neither [<] nor [&]. *)
Lemma errors_ok : forall input n, defines_nothing input -> oks input = true ->
  Forall (fun i => match i with ItEvent _ => True | ItError pe => oks (error_display pe) = true end) (items_of (run n (new_parser input))).
Proof.
  intros input n Hd Ho.
  assert (A : forall n p, plain input p -> Forall (fun i => match i with ItEvent _ => True | ItError pe => oks (error_display pe) = true end) (items_of (run n p))).
  { clear n. induction n as [|n IH]; intros p Hp; [constructor|]. unfold items_of. cbn [run].
    pose proof (plain_step input Hd p Hp) as Hs. destruct (next_step p) as [[[e|pe]| | |x| ] p']; try constructor.
    - specialize (IH p' Hs). unfold items_of in IH. destruct (run n p') as [[l' o'] q']. constructor; [exact I|exact IH].
    - destruct Hs as (Hp' & c & al & s & a & q & b & _ & _ & Ei & _ & _ & _ & Ec).
      specialize (IH p' Hp'). unfold items_of in IH. destruct (run n p') as [[l' o'] q']. constructor; [|exact IH].
      unfold error_display. rewrite !oks_app, oks_message, Ec, oks_app, oks_context; [reflexivity|].
      rewrite Ei, !oks_app in Ho. apply andb_prop in Ho as [_ Ho]. now apply andb_prop in Ho as [Ho _].
    - specialize (IH p' Hs). unfold items_of in IH. destruct (run n p') as [[l' o'] q']. exact IH. }
  apply A. apply plain_new.
Qed.

Definition no_markup (s : str) : Prop := ~ In 60 s /\ ~ In 38 s.

Lemma input_ok : forall s, valid_str s -> no_markup s -> oks s = true.
Proof.
  intros s Hv [H1 H2]. apply forallb_forall. intros c Hc. unfold okc. unfold valid_str in Hv. rewrite Forall_forall in Hv. rewrite (Hv c Hc).
  cbn [andb]. unfold text_char. apply negb_true_iff, orb_false_iff. split; apply N.eqb_neq; intros ->; contradiction.
Qed.

Lemma oks_valid : forall s, oks s = true -> valid_str s /\ text_ok s = true.
Proof.
  intros s H. split.
  - apply Forall_forall. intros c Hc. apply (proj1 (forallb_forall _ _) H) in Hc. now apply andb_prop in Hc as [Hc _].
  - apply forallb_forall. intros c Hc. apply (proj1 (forallb_forall _ _) H) in Hc. now apply andb_prop in Hc as [_ Hc].
Qed.

Lemma errors_clean : forall input l pe, no_markup input -> yields input l -> In (ItError pe) l -> no_markup (error_display pe).
Proof.
  intros input l pe [H1 H2] Hy Hi. split; intros Hc; (destruct (message_chars _ _ _ _ Hy Hi Hc) as [H|H]; [contradiction|vm_compute in H; discriminate]).
Qed.

(** Each error regarded as one element. *)
Definition with_errors (l : list item) : list event := map as_event (map to_ritem l).

Lemma clean_items : forall b input l, valid_str input -> defines_nothing input -> clean_input b input -> ~ In 38 input -> yields input l ->
  Forall (fine (Some b)) (with_errors l).
Proof.
  intros b input l Hv Hd Hc Ha (n & <-).
  pose proof (clean_run b input n Hv Hd Hc) as H1.
  pose proof (errors_ok input n Hd (input_ok input Hv (conj (proj1 Hc) Ha))) as H2.
  revert H1 H2. generalize (items_of (run n (new_parser input))). intros l H1 H2. unfold with_errors.
  induction l as [|[e|pe] l IH]; [constructor| |]; inversion H1; inversion H2; subst; cbn [map to_ritem as_event]; (constructor; [|apply IH; assumption]).
  - eapply EvFine.lfine_fine. eassumption.
  - match goal with H : oks _ = true |- _ => apply oks_valid in H as [A B] end. split; [exact A|exact B].
Qed.

Lemma errors_convert : forall b cfg input l, valid_str input -> defines_nothing input -> clean_input b input -> ~ In 38 input -> note_clean (Some b) cfg = true ->
  parses input l -> well_formed (with_errors l) -> exists out, converts cfg input out /\ document (mkOpts b false) out.
Proof.
  intros b cfg input l Hv Hd Hc Ha Hn Hp Hw. destruct (push_items_document b cfg (map to_ritem l)) as (out & E & D); try assumption.
  - apply (clean_items b input l Hv Hd Hc Ha (parses_yields _ _ Hp)).
  - exists out. split; [|exact D]. exists l. split; assumption.
Qed.
