(** * SpecRows: the groups that are open after a stream of events, and the
    alignment marks in the current row of each. *)

From Coq Require Import List NArith Bool Lia Arith.
From Verif Require Import Base Float32 Event SpecEvent SpecGrammar.
Import ListNotations.
Open Scope N_scope.

(** The innermost group comes first. *)
Fixpoint open_groups (S : list (grouping * N)) (l : list event) : list (grouping * N) :=
  match l with
  | [] => S
  | EvBegin g :: l' => open_groups ((g, 0) :: S) l'
  | EvEnd :: l' => open_groups (tl S) l'
  | EvFlow EFAlignment :: l' => open_groups (match S with (g, k) :: S' => (g, k + 1) :: S' | [] => [] end) l'
  | EvFlow (EFNewLine _ _) :: l' => open_groups (match S with (g, _) :: S' => (g, 0) :: S' | [] => [] end) l'
  | _ :: l' => open_groups S l'
  end.

(** Every mark and every new line is directly inside an environment, and a mark
    is one that the environment still allows in this row. *)
Definition flow_placed (l : list event) : Prop :=
  forall a f b, l = (a ++ EvFlow f :: b)%list ->
  exists g k S m, open_groups [] a = (g, k) :: S /\ marks g = Some m /\ (f = EFAlignment -> k < m).

(** ** The checker checks this *)

Fixpoint bodies (F : list frame) : list (option (N * N)) :=
  match F with
  | [] => []
  | Body _ r :: F' => r :: bodies F'
  | Need _ :: F' => bodies F'
  end.

Definition row_of (x : grouping * N) : option (N * N) := option_map (fun m => (snd x, m)) (marks (fst x)).

Lemma done_bodies : forall F F1, done F = Some F1 -> bodies F1 = bodies F.
Proof.
  induction F as [|[x r|[|[|n]]] F IH]; intros F1 H; try discriminate; cbn in H.
  - injection H as <-. reflexivity.
  - apply IH in H. exact H.
  - injection H as <-. reflexivity.
Qed.

(** The outermost frame is the body of the stream. *)
Fixpoint grounded (F : list frame) : Prop :=
  match F with
  | [] => False
  | Body _ _ :: [] => True
  | _ :: F' => grounded F'
  end.

Lemma done_grounded : forall F F1, done F = Some F1 -> grounded F -> grounded F1.
Proof.
  induction F as [|[x r|[|[|n]]] F IH]; intros F1 H HG; try discriminate; cbn in H.
  - injection H as <-. destruct F; exact HG.
  - apply IH; [exact H|]. destruct F; [contradiction|exact HG].
  - injection H as <-. exact HG.
Qed.

Lemma grounded_bodies : forall F, grounded F -> bodies F <> [].
Proof.
  induction F as [|[x r|n] F IH]; intros H; [contradiction|discriminate|]. cbn [bodies]. apply IH. exact H.
Qed.

Lemma feed_grounded : forall F e F1, feed F e = Some F1 -> grounded F -> grounded F1.
Proof.
  intros F e F1 H HG.
  destruct e as [c|g| |v|t p|w h d|s|f]; cbn [feed] in H; try (eapply done_grounded; eassumption);
    try (unfold open in H; destruct (done F); [injection H as <-; destruct F; [contradiction|exact HG]|discriminate]).
  - destruct F as [|[x r|k] F]; try discriminate. eapply done_grounded; [exact H|]. destruct F; [discriminate|exact HG].
  - destruct F as [|[x r|k] F]; try discriminate; [injection H as <-; exact HG|]. eapply done_grounded; eassumption.
  - destruct F as [|[x [[c m]|]|k] F]; try discriminate.
    destruct f; [destruct (c <? m)|..|destruct x]; try discriminate; injection H as <-; destruct F; exact HG.
Qed.

Lemma feeds_grounded : forall l F F1, feeds F l = Some F1 -> grounded F -> grounded F1.
Proof.
  induction l as [|e l IH]; intros F F1 H HG; cbn [feeds] in H; [injection H as <-; exact HG|].
  destruct (feed F e) as [F2|] eqn:E; [|discriminate]. eapply IH; [exact H|]. eapply feed_grounded; eassumption.
Qed.

Lemma feeds_groups : forall l F S F1, grounded F -> bodies F = (map row_of S ++ [None])%list -> feeds F l = Some F1 ->
  bodies F1 = (map row_of (open_groups S l) ++ [None])%list.
Proof.
  induction l as [|e l IH]; intros F S F1 HG HF H; [injection H as <-; exact HF|].
  cbn [feeds] in H. destruct (feed F e) as [F2|] eqn:E; [|discriminate].
  pose proof (feed_grounded _ _ _ E HG) as HG2. pose proof (fun S => IH F2 S F1 HG2) as IH2.
  destruct e as [c|g| |v|t p|w h d|s|f]; cbn [feed] in E; cbn [open_groups];
    try (apply done_bodies in E; apply IH2; [congruence|exact H]);
    try (unfold open in E; destruct (done F); [|discriminate]; injection E as <-; apply IH2; [|exact H];
         cbn [bodies]; rewrite HF; reflexivity).
  - destruct F as [|[x r|k] F]; try discriminate. apply IH2; [|exact H]. apply done_bodies in E as E'. cbn [bodies] in HF.
    rewrite E'. destruct S as [|y S]; cbn [map app tl] in *; [|congruence].
    exfalso. injection HF as _ HF. destruct F as [|f F]; [discriminate|].
    apply (grounded_bodies (f :: F)); [exact HG|exact HF].
  - destruct F as [|[x r|k] F]; try discriminate; [injection E as <-; apply IH2; assumption|].
    apply done_bodies in E. apply IH2; [congruence|exact H].
  - destruct F as [|[x [[c m]|]|k] F]; try discriminate. cbn [bodies] in HF.
    destruct S as [|[g k] S]; [discriminate|]. cbn [map app] in HF. injection HF as HF1 HF.
    unfold row_of in HF1. cbn [fst snd] in HF1. destruct (marks g) as [m'|] eqn:Em; [|discriminate].
    cbn [option_map] in HF1. injection HF1 as <- <-.
    destruct f; [destruct (c <? m)|..|destruct x]; try discriminate; injection E as <-; apply IH2; try exact H;
      cbn [bodies map app]; unfold row_of at 1; cbn [fst snd]; rewrite Em, HF; reflexivity.
Qed.

Lemma well_begun_placed : forall l, well_begun l -> flow_placed l.
Proof.
  intros l [F1 H] a f b ->. rewrite feeds_app in H. destruct (feeds start_frames a) as [F|] eqn:Ea; [|discriminate].
  cbn [feeds] in H. destruct (feed F (EvFlow f)) as [F2|] eqn:E; [|discriminate]. cbn [feed] in E.
  pose proof (feeds_groups a start_frames [] F I eq_refl Ea) as Hb.
  destruct F as [|[x [[c m]|]|k] F]; try discriminate. cbn [bodies] in Hb.
  destruct (open_groups [] a) as [|[g k] S]; [discriminate|]. cbn [map app] in Hb. injection Hb as Hb _.
  unfold row_of in Hb. cbn [fst snd] in Hb. destruct (marks g) as [m'|] eqn:Em; [|discriminate]. injection Hb as <- <-.
  exists g, c, S, m. split; [reflexivity|]. split; [exact Em|]. intros ->. destruct (N.ltb_spec c m); [assumption|discriminate].
Qed.
