(** * WholeFacts: the whole conversion, from text to markup. *)

From Coq Require Import List NArith ZArith Bool.
From Verif Require Import Base Float32 Event Tables Prim PrimTable Lex Macros Primitives Spans Parser Mathml
  PrimFacts Order Api SpecEvent SpecStream SpecInput SpecClean SpecXml ShapeStrict NoPanic
  RenderTree RenderDoc RenderProps SpecDraw RenderDraw DrawTrees RenderDrawn Whole FineInput SpecFormula FormulaCompose FormulaProps.
Import ListNotations.
Open Scope N_scope.
#[local] Existing Instance parsed.

Lemma calm_converts : forall cfg input, valid_str input -> calm input -> no_array_names input -> exists out, converts cfg input out.
Proof.
  intros cfg input Hv Hc Ha. destruct (calm_parses input Hc) as (l & Hl). eapply plain_converts; eauto. apply Hc.
Qed.

Lemma stream_drawn : forall cfg input l, valid_str input -> parses input l -> error_free l -> well_formed (Api.events l) ->
  exists ts, all_events ts = Api.events l /\ forallb proper ts = true /\ forall out, converts cfg input out <-> out = print (drawing_of cfg ts).
Proof.
  intros cfg input l Hv Hp He Hw. pose proof (valid_events _ _ Hv (parses_yields _ _ Hp)) as Hf.
  destruct (stream_trees _ Hw) as (ts & E & Hpr). exists ts. split; [exact E|]. split; [exact Hpr|].
  rewrite <- E in Hw, Hf. pose proof (push_drawn cfg [] ts Hw Hf Hpr) as D. cbn [app] in D. rewrite E in D.
  rewrite <- error_free_items in D by exact He. intros out. split.
  - intros (l' & Hl' & Hout). rewrite (parses_det _ _ _ Hl' Hp) in Hout. congruence.
  - intros ->. exists l. split; assumption.
Qed.

Lemma conversion_drawn : forall cfg input l, valid_str input -> regular input -> parses input l -> error_free l ->
  exists ts, all_events ts = Api.events l /\ forallb proper ts = true /\ forall out, converts cfg input out <-> out = print (drawing_of cfg ts).
Proof. intros cfg input l Hv Hr Hp He. exact (stream_drawn cfg input l Hv Hp He (regular_well_formed _ _ Hr Hp He)). Qed.

Lemma meaning_drawn : forall cfg input es, valid_str input -> regular input -> SpecFormula.formula None input es ->
  exists ts, all_events ts = es /\ forallb proper ts = true /\ forall out, converts cfg input out <-> out = print (drawing_of cfg ts).
Proof.
  intros cfg input es Hv Hr Hf. pose proof (meaning_parses _ _ Hf) as Hp.
  assert (E : Api.events (map ItEvent es) = es) by (clear; induction es; cbn; congruence).
  destruct (conversion_drawn cfg input _ Hv Hr Hp) as (ts & H1 & H2); [|exists ts; rewrite E in H1; auto].
  unfold error_free. clear. induction es; cbn; auto.
Qed.

(** Tests for the hypotheses. *)
Lemma valid_b_ok : forall s, forallb valid_char s = true -> valid_str s.
Proof. intros s H. rewrite forallb_forall in H. apply Forall_forall. exact H. Qed.

Definition none_b (l : list str) (s : str) : bool := forallb (fun c => negb (contains_b c s)) l.
Definition clean_b (xml : bool) (s : str) : bool :=
  forallb (fun c => negb (c =? 60)) s && none_b unescaped_commands s && (forallb (fun c => negb (c =? 38)) s || none_b raw_commands s) &&
  (negb xml || none_b html_commands s).

Lemma none_b_ok : forall l s, none_b l s = true -> has_none l s.
Proof.
  intros l s H c Hc. unfold none_b in H. rewrite forallb_forall in H. apply contains_b_not. apply negb_true_iff. auto.
Qed.

Lemma clean_b_ok : forall xml s, clean_b xml s = true -> clean_input xml s.
Proof.
  intros xml s H. unfold clean_b in H. apply andb_prop in H as [H H4]. apply andb_prop in H as [H H3]. apply andb_prop in H as [H1 H2].
  split; [apply absent_b; exact H1|]. split; [apply none_b_ok; exact H2|]. split.
  - intros Hi. apply orb_prop in H3 as [H3|H3]; [destruct (absent_b _ _ H3 Hi)|apply none_b_ok; exact H3].
  - intros ->. apply none_b_ok. exact H4.
Qed.
