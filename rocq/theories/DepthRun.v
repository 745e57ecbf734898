(** * DepthRun: groups on every input, and commands that leave none open. *)

From Coq Require Import List NArith ZArith Bool Lia Arith.
From Verif Require Import Base Float32 Event Tables Prim PrimTable Lex Macros Primitives Spans Parser
  SpecLex LexFacts LexMore PrimFacts Keep Measure Order Terminate KeepRun Api SpecEvent SpecOpen Shape ShapeRun Depth CheckInput.
Import ListNotations.
Open Scope N_scope.

Lemma nest_always : forall input l, yields input l -> depth 0 (events l) <> None.
Proof.
  intros input l [n H].
  assert (HJ : def_closed (fun _ => True) (fun _ => True)) by (intros ? ? ? ? ? ? ? ? ?; exact I).
  pose proof (standing_run (fun _ => True) (fun _ _ _ _ => I) (fun _ => True) I (fun c _ => or_intror (fun _ => I))
    (fun _ _ _ _ => I) (fun _ _ _ _ => I) (fun _ => True) HJ (fun _ _ _ _ _ _ _ _ _ _ _ _ _ => I) n O (new_parser input)) as Hr.
  destruct (run n (new_parser input)) as [[l' o] p]. cbn in H. subst l'.
  destruct Hr as (d & E & _); [|congruence].
  split; [apply any_start|]. split; [exists O; auto|]. exists O. auto.
Qed.

Lemma fragile_known : forall cs, fragile (lookup_prim cs) = true -> In (92 :: cs) opening_commands.
Proof.
  assert (Ht : forallb (fun x => negb (fragile (snd x)) || existsb (str_eqb (92 :: fst x)) opening_commands)
    prim_table = true) by (vm_compute; reflexivity).
  intros cs H. unfold lookup_prim in H. destruct (assoc_str cs prim_table) as [p|] eqn:E.
  - apply assoc_str_in in E. pose proof (proj1 (forallb_forall _ _) Ht _ E) as H1. cbn [fst snd] in H1.
    rewrite H in H1. unfold negb, orb in H1. apply existsb_exists in H1 as (x & H1 & H2). apply str_eqb_eq in H2. subst. exact H1.
  - destruct (control_sequence_delimiter_map cs) as [[? ?]|]; [discriminate|].
    destruct (is_nil (trim_start cs)); discriminate.
Qed.

Lemma wrapped_known : forall name, wrapped name = true -> exists a w b, In w opening_environments /\ name = (a ++ w ++ b)%list.
Proof.
  assert (Ht : forallb (fun x => negb (wrapped (fst x)) || existsb (fun w => str_eqb w (firstn (length w) (fst x))) opening_environments)
    matrix_table = true) by (vm_compute; reflexivity).
  intros name H. unfold wrapped in H. destruct (assoc_str name matrix_table) as [x|] eqn:E; [|discriminate].
  pose proof E as Ei. apply assoc_str_in in Ei. pose proof (proj1 (forallb_forall _ _) Ht _ Ei) as H1. cbn [fst] in H1.
  unfold wrapped in H1. rewrite E, H in H1. cbn [negb orb] in H1. apply existsb_exists in H1 as (w & H1 & H2). apply str_eqb_eq in H2.
  exists [], w, (skipn (length w) name). split; [exact H1|]. cbn [app]. rewrite H2 at 1. rewrite firstn_skipn. reflexivity.
Qed.

Definition steady (s : slice) : Prop := defines_nothing (stxt s) /\ leaves_none_open (stxt s).

Lemma steady_sub : forall a b, sl_sub a b -> steady b -> steady a.
Proof.
  intros a b Hs [H1 H2]. split; [eapply undefining_sub; eassumption|].
  intros c Hc Hin. apply (H2 c Hc). eapply contains_sub; eassumption.
Qed.

Lemma balanced_after_errors : forall input l, defines_nothing input -> leaves_none_open input -> parses input l ->
  depth 0 (events l) = Some O.
Proof.
  intros input l Hd Ho (n & p & H).
  assert (HJ : def_closed steady (fun m => m = [])).
  { intros cs name d m (_ & sl & [Hsl _] & Hc) Hdp _ _ _. exfalso. eapply Hsl; [|exact Hc]. apply definition_commands_all. exact Hdp. }
  assert (H1 : forall cs, cs_in steady cs -> fragile (lookup_prim cs) = true -> forall c, c = O).
  { intros cs (_ & sl & [_ Hsl] & Hc) Hf. exfalso. eapply Hsl; [|exact Hc]. apply in_or_app. left. apply fragile_known. exact Hf. }
  assert (H2 : forall sl, steady sl -> wrapped (stxt sl) = true -> forall c, c = O).
  { intros sl [_ Hsl] Hw. exfalso. destruct (wrapped_known _ Hw) as (a & w & b & Hin & E). eapply Hsl; [apply in_or_app; right; exact Hin|].
    exists a, b. exact E. }
  assert (HX : forall m cs d r txt k n sl, m = [] -> ctx_get m cs = Some d -> steady sl -> suffix r (stxt sl) -> expand_definition d r = Ok (txt, k) -> steady (mkSlice n 0 txt)).
  { intros m cs d r txt k n0 sl -> Hg. discriminate. }
  pose proof (standing_run steady steady_sub (fun c => c = O) eq_refl (fun c H => or_introl H) H1 H2 (fun m => m = []) HJ HX n O (new_parser input)) as Hr.
  rewrite H in Hr. destruct Hr as (d & E & Hz).
  - split; [|split; [exists O; auto|exists O; auto]]. split; [|split; [constructor|reflexivity]]. constructor; [|constructor]. split; assumption.
  - rewrite E, (Hz eq_refl). reflexivity.
Qed.

(** Each of them does leave a group open. *)
Definition open_after (n : nat) (input : str) : bool :=
  match run n (new_parser input) with
  | (l, ODone, _) => match depth 0 (events l) with Some (S _) => true | _ => false end
  | _ => false
  end.

Definition failing_tails : list str := [lit "\foo b"; lit "{red}\foo b"; lit "{red}{red}\foo b"; lit "(){}{0}\foo b"].

Lemma opening_commands_open : forallb (fun c => existsb (fun t => open_after 100 (c ++ t)) failing_tails) opening_commands = true.
Proof. vm_compute. reflexivity. Qed.

Lemma opening_environments_open : forallb (fun w => open_after 100 (lit "{\begin{" ++ w ++ lit "}}b")) opening_environments = true.
Proof. vm_compute. reflexivity. Qed.

Lemma open_after_parses : forall n input, open_after n input = true -> exists l d, parses input l /\ depth 0 (events l) = Some (S d).
Proof.
  intros n input H. unfold open_after in H. destruct (run n (new_parser input)) as [[l o] p] eqn:E. destruct o; try discriminate.
  destruct (depth 0 (events l)) as [[|d]|] eqn:D; try discriminate. exists l, d. split; [exists n, p; exact E|exact D].
Qed.

Lemma opening_needed : forall t, In t (opening_commands ++ opening_environments) ->
  exists input l d, contains t input /\ parses input l /\ depth 0 (events l) = Some (S d).
Proof.
  intros t Ht. apply in_app_or in Ht as [Ht|Ht].
  - pose proof (proj1 (forallb_forall (fun c => existsb (fun t => open_after 100 (c ++ t)) failing_tails) opening_commands) opening_commands_open t Ht) as H.
    apply existsb_exists in H as (s & _ & H). apply open_after_parses in H as (l & d & Hp & Hd).
    exists (t ++ s)%list, l, d. split; [|auto]. exists [], s. reflexivity.
  - pose proof (proj1 (forallb_forall (fun w => open_after 100 (lit "{\begin{" ++ w ++ lit "}}b")) opening_environments) opening_environments_open t Ht) as H.
    apply open_after_parses in H as (l & d & Hp & Hd).
    exists (lit "{\begin{" ++ t ++ lit "}}b")%list, l, d. split; [|auto]. exists (lit "{\begin{"), (lit "}}b"). reflexivity.
Qed.

(** A test for texts that contain none of some words. *)
Lemma contains_none : forall words s, forallb (fun t => negb (existsb (fun c => starts_with c t) words)) (suffixes s) = true ->
  forall c, In c words -> ~ contains c s.
Proof.
  intros words s H c Hc (p & q & ->).
  assert (Hs : In (c ++ q)%list (suffixes (p ++ c ++ q))).
  { clear H. induction p as [|x p IH]; cbn [app suffixes]; [destruct (c ++ q)%list; left; reflexivity|right; exact IH]. }
  pose proof (proj1 (forallb_forall _ _) H _ Hs) as H1. apply negb_true_iff in H1.
  assert (H2 : existsb (fun c0 => starts_with c0 (c ++ q)) words = true).
  { apply existsb_exists. exists c. split; [exact Hc|apply starts_with_app]. }
  congruence.
Qed.
