(** * CallFacts: texts with macros, from the text to the markup. *)

From Coq Require Import List NArith ZArith Bool Lia.
From Verif Require Import Base Event Macros Spans Parser Mathml PrimFacts Order Api SpecEvent SpecStream SpecXml SpecMacro Terminate Sim SimRun MacroRun NoPanic Preamble SpecCall CallRun
  RenderTree SpecDraw RenderDraw DrawTrees RenderDrawn Whole WholeFacts.
Import ListNotations.
Open Scope N_scope.

Lemma error_free_events : forall es, error_free (map ItEvent es).
Proof. unfold error_free. induction es; cbn; auto. Qed.

Lemma events_items : forall es, Api.events (map ItEvent es) = es.
Proof. induction es; cbn; congruence. Qed.

Lemma view_events : forall es, view_of (map ItEvent es) ODone = (es, EndDone).
Proof. induction es as [|e es IH]; [reflexivity|]. cbn [map view_of]. rewrite IH. reflexivity. Qed.

Lemma shows_done : forall d es, parses d (map ItEvent es) -> shows (new_parser d) (es, EndDone).
Proof. intros d es (n & p & H). exists n. eexists. eexists. eexists. split; [exact H|]. split; [discriminate|]. rewrite view_events. reflexivity. Qed.

Lemma shows_fun : forall p v v', shows p v -> shows p v' -> v = v'.
Proof.
  intros p. induction p as [p IH] using smaller_ind. intros v v' Hv Hv'. apply shows_step in Hv, Hv'.
  pose proof (step_smaller p) as Hs. destruct (next_step p) as [[[ev|pe]| | |x| ] p']; cbn [shows_of] in *; try congruence.
  - destruct Hv as (w & Hw & ->), Hv' as (w' & Hw' & ->). rewrite (IH p' Hs _ _ Hw Hw'). reflexivity.
  - eapply IH; eassumption.
  - contradiction.
Qed.

Lemma macros_mean : forall k d es v, text_with_macros k d es -> shows (new_parser d) v ->
  v = (es, EndDone) \/ exists es1 es2, es = (es1 ++ es2)%list /\ v = (es1, EndError EMacroRecursionLimit).
Proof.
  intros k d es v H Hv. destruct (macros_arrive k d es H) as [Hp|(es1 & es2 & E & Hs & _)].
  - left. eapply shows_fun; [exact Hv|]. apply shows_done. destruct Hp as (n & p & Hp). exists n. eexists. exact Hp.
  - right. exists es1, es2. split; [exact E|]. eapply shows_fun; eassumption.
Qed.

Lemma macros_complete : forall k d es v, text_with_macros k d es -> shows (new_parser d) v -> SimRun.complete v -> v = (es, EndDone).
Proof. intros k d es v H Hv [_ Hc]. destruct (macros_mean k d es v H Hv) as [E|(es1 & es2 & _ & ->)]; [exact E|]. contradiction Hc. reflexivity. Qed.

Lemma macros_parses : forall k d es, text_with_macros k d es -> (k <= 63)%nat -> ~ bytes_reached d -> parses d (map ItEvent es).
Proof.
  intros k d es H Hk Hb. destruct (macros_arrive k d es H) as [(n & p & Hp)|(es1 & es2 & _ & _ & [Hx|Hx])]; [|lia|contradiction].
  exists n. eexists. exact Hp.
Qed.

Lemma macros_drawn : forall cfg k d es, valid_str d -> text_with_macros k d es -> (k <= 63)%nat -> ~ bytes_reached d -> well_formed es ->
  exists ts, all_events ts = es /\ forallb proper ts = true /\ forall out, converts cfg d out <-> out = print (drawing_of cfg ts).
Proof.
  intros cfg k d es Hv H Hk Hb Hw. pose proof (macros_parses _ _ _ H Hk Hb) as Hp.
  destruct (stream_drawn cfg d _ Hv Hp (error_free_events es)) as (ts & H1 & H2); [rewrite events_items; exact Hw|].
  exists ts. rewrite events_items in H1. auto.
Qed.

(** A test for the length of the expansions in a run that ends. *)
Fixpoint bytes_below (n : nat) (p : parser) : bool :=
  (s_total (p_spans p) <? 2 ^ 20) &&
  match n with
  | O => false
  | S n => match next_step p with (OItem _, p') | (OCont, p') => bytes_below n p' | (ODone, _) => true | _ => false end
  end.

Lemma bytes_test : forall n d, bytes_below n (new_parser d) = true -> ~ bytes_reached d.
Proof.
  assert (H : forall n p, bytes_below n p = true -> forall i l q, run i p = (l, OFuel, q) -> s_total (p_spans q) < 2 ^ 20).
  { induction n as [|n IH]; intros p H i l q Hi; cbn [bytes_below] in H; apply andb_prop in H as [H1 H2]; [discriminate|].
    apply N.ltb_lt in H1. destruct i as [|i]; cbn [run] in Hi; [congruence|].
    destruct (next_step p) as [[it| | |x| ] p'] eqn:En; try discriminate.
    - destruct (run i p') as [[l1 o1] q1] eqn:E. injection Hi as <- -> ->. eapply IH; eassumption.
    - eapply IH; eassumption. }
  intros n d Hb (i & l & p & Hr & Hx). pose proof (H n _ Hb _ _ _ Hr). apply N.lt_nge in H0. contradiction.
Qed.
