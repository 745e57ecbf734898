(** * DrawTrees: a stream of the documented shape is the text of trees. *)

From Coq Require Import List Arith NArith Bool Lia.
From Verif Require Import Base Float32 Event SpecEvent SpecDraw.
Import ListNotations.
Open Scope N_scope.
Open Scope list_scope.

(** The events that start an element. *)
Definition starts (e : event) : bool := match e with EvEnd | EvFlow _ => false | _ => true end.

(** The frames after an element. *)
Definition after (F : list frame) (t : tree) : option (list frame) :=
  match t, F with
  | TState _, Body _ _ :: _ => Some F
  | _, _ => done F
  end.

Definition complete (b : bool) (F : list frame) (es : list event) : Prop := feeds F es = Some [Body b None].

Lemma all_events_cons : forall t ts, all_events (t :: ts) = events t ++ all_events ts.
Proof. reflexivity. Qed.

Section Trees.
Variable b : bool.
Notation ends := (complete b).

Definition node_at (n : nat) : Prop := forall e es F, (length (e :: es) <= n)%nat -> starts e = true -> ends F (e :: es) ->
  exists t es1 F1, e :: es = events t ++ es1 /\ proper t = true /\ (length es1 <= length es)%nat /\ after F t = Some F1 /\ ends F1 es1.

Lemma after_body : forall s r F t, exists s', after (Body s r :: F) t = Some (Body s' r :: F).
Proof. intros s r F []; cbn; eexists; reflexivity. Qed.

Lemma ends_cons : forall F e es, ends F (e :: es) -> exists F1, feed F e = Some F1 /\ ends F1 es.
Proof. intros F e es H. unfold complete in *. cbn [feeds] in H. destruct (feed F e) as [F1|]; [|discriminate]. eauto. Qed.

(** A group that is not a table. *)
Lemma body_from : forall n, node_at n -> forall k, (k <= n)%nat -> forall es s F, (length es <= k)%nat -> F <> [] -> ends (Body s None :: F) es ->
  exists ts es1 F1, es = all_events ts ++ EvEnd :: es1 /\ forallb proper ts = true /\ (length es1 < length es)%nat /\ done F = Some F1 /\ ends F1 es1.
Proof.
  intros n HN. induction k as [|k IH]; intros Hk es s F Hl HF He.
  - destruct es; [|cbn in Hl; lia]. unfold complete in He. cbn [feeds] in He. destruct F; [congruence|discriminate].
  - destruct es as [|e es]; [unfold complete in He; cbn [feeds] in He; destruct F; [congruence|discriminate]|].
    destruct (starts e) eqn:Es.
    + destruct (HN e es _ ltac:(lia) Es He) as (t & es1 & F1 & H1 & H2 & H3 & H4 & H5). destruct (after_body s None F t) as [s' Ha]. rewrite Ha in H4. injection H4 as <-.
      cbn [length] in Hl. destruct (IH ltac:(lia) es1 s' F ltac:(lia) HF H5) as (ts & es2 & F2 & G1 & G2 & G3 & G4 & G5).
      exists (t :: ts), es2, F2. rewrite H1, G1. rewrite all_events_cons, <- app_assoc. cbn [forallb]. rewrite H2, G2. repeat split; try assumption. rewrite <- G1, <- H1. cbn [length]. lia.
    + destruct (ends_cons _ _ _ He) as (F1 & H1 & H2). destruct e; try discriminate Es; cbn [feed] in H1; [|discriminate].
      exists [], es, F1. cbn. repeat split; try assumption. lia.
Qed.

Lemma top_from : forall n, node_at n -> forall es s, (length es <= n)%nat -> ends [Body s None] es -> exists ts, es = all_events ts /\ forallb proper ts = true.
Proof.
  intros n HN.
  assert (K : forall k es s, (length es <= k)%nat -> (k <= n)%nat -> ends [Body s None] es -> exists ts, es = all_events ts /\ forallb proper ts = true).
  { induction k as [|k IH]; intros es s Hl Hk He.
    - destruct es; [|cbn in Hl; lia]. exists []. auto.
    - destruct es as [|e es]; [exists []; auto|]. destruct (starts e) eqn:Es.
      + destruct (HN e es _ ltac:(lia) Es He) as (t & es1 & F1 & H1 & H2 & H3 & H4 & H5). destruct (after_body s None [] t) as [s' Ha]. rewrite Ha in H4. injection H4 as <-.
        cbn [length] in Hl. destruct (IH es1 s' ltac:(lia) ltac:(lia) H5) as (ts & G1 & G2). exists (t :: ts). rewrite H1, G1. cbn [forallb]. rewrite H2, G2. auto.
      + destruct (ends_cons _ _ _ He) as (F1 & H1 & H2). destruct e; try discriminate Es; cbn [feed done] in H1; discriminate. }
  intros es s Hl He. apply (K n es s Hl); [lia|exact He].
Qed.

(** The elements a visual or a script requires. *)
Lemma need_from : forall n, node_at n -> forall k es F, (length es <= n)%nat -> ends (Need (S k) :: F) es ->
  exists ts es1 F1, es = all_events ts ++ es1 /\ length ts = S k /\ forallb proper ts = true /\ (length es1 <= length es)%nat /\ done F = Some F1 /\ ends F1 es1.
Proof.
  intros n HN. induction k as [|k IH]; intros es F Hl He.
  all: destruct es as [|e es]; [discriminate He|].
  all: assert (Es : starts e = true) by (destruct (ends_cons _ _ _ He) as (F1 & H1 & _); destruct e; try reflexivity; discriminate H1).
  all: destruct (HN e es _ Hl Es He) as (t & es1 & F1 & H1 & H2 & H3 & H4 & H5).
  - exists [t], es1, F1. assert (Ha : after (Need 1 :: F) t = done F) by (destruct t; reflexivity). rewrite Ha in H4.
    rewrite H1. rewrite all_events_cons. cbn [all_events flat_map forallb length]. rewrite app_nil_r, H2, <- H1. cbn [length]. repeat split; try assumption. lia.
  - assert (Ha : after (Need (S (S k)) :: F) t = Some (Need (S k) :: F)) by (destruct t; reflexivity). rewrite Ha in H4. injection H4 as <-. cbn [length] in Hl.
    destruct (IH es1 F ltac:(lia) H5) as (ts & es2 & F2 & G1 & G2 & G3 & G4 & G5 & G6).
    exists (t :: ts), es2, F2. rewrite H1, G1. rewrite all_events_cons, <- app_assoc. cbn [forallb length]. rewrite H2, G2, G3, <- G1, <- H1. cbn [length]. repeat split; try assumption. lia.
Qed.

(** What ends a cell. *)
Definition ends_cell (e : event) : bool := match e with EvEnd | EvFlow EFAlignment | EvFlow (EFNewLine _ _) => true | _ => false end.

Lemma cell_from : forall n, node_at n -> forall k, (k <= n)%nat -> forall es s c m F, (length es <= k)%nat -> ends (Body s (Some (c, m)) :: F) es ->
  exists cell e es1 s1, es = all_events cell ++ e :: es1 /\ ends_cell e = true /\ forallb proper cell = true /\ (length (e :: es1) <= length es)%nat /\ ends (Body s1 (Some (c, m)) :: F) (e :: es1).
Proof.
  intros n HN. induction k as [|k IH]; intros Hk es s c m F Hl He.
  - destruct es; [|cbn in Hl; lia]. discriminate He.
  - destruct es as [|e es]; [discriminate He|]. destruct (ends_cell e) eqn:Ee.
    + exists [], e, es, s. cbn. repeat split; auto.
    + destruct (starts e) eqn:Es.
      * destruct (HN e es _ ltac:(lia) Es He) as (t & es1 & F1 & H1 & H2 & H3 & H4 & H5). destruct (after_body s (Some (c, m)) F t) as [s' Ha]. rewrite Ha in H4. injection H4 as <-.
        cbn [length] in Hl. destruct (IH ltac:(lia) es1 s' c m F ltac:(lia) H5) as (cell & e1 & es2 & s2 & G1 & G2 & G3 & G4 & G5).
        exists (t :: cell), e1, es2, s2. rewrite H1, G1. rewrite all_events_cons, <- app_assoc. cbn [forallb]. rewrite H2, G3. repeat split; try assumption. rewrite <- G1, <- H1. cbn [length] in *. lia.
      * destruct e as [| | | | | | |f]; try discriminate. destruct f as [| |ls]; try discriminate. destruct (ends_cons _ _ _ He) as (F1 & H1 & H2). cbn [feed] in H1. destruct s; [|discriminate]. injection H1 as <-.
        cbn [length] in Hl. destruct (IH ltac:(lia) es false c m F ltac:(lia) H2) as (cell & e1 & es2 & s2 & G1 & G2 & G3 & G4 & G5).
        exists (TLost ls :: cell), e1, es2, s2. rewrite G1. rewrite all_events_cons. cbn [forallb events app proper andb]. repeat split; try assumption. rewrite <- G1. cbn [length] in *. lia.
Qed.

(** The rest of a row, and the rows that follow. *)
Definition row_text (row : list (list tree)) : list event := row_events (map (fun cell => flat_map events cell) row).
Lemma rows_from : forall n, node_at n -> forall k, (k <= n)%nat -> forall es s c m F, (length es <= k)%nat -> c <= m -> ends (Body s (Some (c, m)) :: F) es ->
  exists cell cells rows breaks es1 F1, es = between (map row_text ((cell :: cells) :: rows)) (map break_event breaks) ++ EvEnd :: es1 /\
    c + N.of_nat (length cells) <= m /\ forallb (row_ok m) rows = true /\ length rows = length breaks /\ forallb (forallb (forallb proper)) ((cell :: cells) :: rows) = true /\
    (length es1 < length es)%nat /\ done F = Some F1 /\ ends F1 es1.
Proof.
  intros n HN. induction k as [|k IH]; intros Hk es s c m F Hl Hc He.
  - destruct es; [|cbn in Hl; lia]. discriminate He.
  - destruct (cell_from n HN (S k) Hk es s c m F Hl He) as (cell & e & es1 & s1 & H1 & H2 & H3 & H4 & H5).
    destruct (ends_cons _ _ _ H5) as (F1 & H6 & H7). cbn [length] in H4. destruct e as [| | | | | | |f]; try discriminate H2; [|destruct f as [|sp hl|]; try discriminate H2]; cbn [feed] in H6.
    + exists cell, [], [], [], es1, F1. unfold row_text. cbn [map between row_events tl length forallb]. rewrite H1, H3. repeat split; try assumption; try lia. rewrite <- H1. lia.
    + destruct (c <? m) eqn:Ecm; [|discriminate]. injection H6 as <-. apply N.ltb_lt in Ecm.
      destruct (IH ltac:(lia) es1 false (c + 1) m F ltac:(lia) ltac:(lia) H7) as (cell1 & cells & rows & breaks & es2 & F2 & G1 & G2 & G3 & G4 & G5 & G6 & G7 & G8).
      exists cell, (cell1 :: cells), rows, breaks, es2, F2. split; [|split; [cbn [length]; lia|]].
      * rewrite H1, G1. unfold row_text. cbn [map]. change (row_events (flat_map events cell :: flat_map events cell1 :: map (fun cell => flat_map events cell) cells)) with
          (flat_map events cell ++ EvFlow EFAlignment :: row_events (flat_map events cell1 :: map (fun cell => flat_map events cell) cells)).
        destruct breaks as [|bk breaks], rows as [|r1 rows]; try discriminate G4; cbn [map between]; rewrite <- !app_assoc; cbn [app]; rewrite <- ?app_assoc; reflexivity.
      * cbn [forallb] in G5 |- *. rewrite H3. repeat split; try assumption. lia.
    + injection H6 as <-.
      destruct (IH ltac:(lia) es1 false 0 m F ltac:(lia) ltac:(lia) H7) as (cell1 & cells & rows & breaks & es2 & F2 & G1 & G2 & G3 & G4 & G5 & G6 & G7 & G8).
      exists cell, [], ((cell1 :: cells) :: rows), ((sp, hl) :: breaks), es2, F2. split; [|split; [cbn [length]; lia|]].
      * rewrite H1, G1. unfold row_text. cbn [map between row_events tl break_event fst snd]. rewrite <- !app_assoc. reflexivity.
      * cbn [forallb length] in G5 |- *. rewrite H3, G3, G4. cbn [andb]. rewrite G5. repeat split; try assumption; [|lia]. rewrite andb_true_r. apply N.leb_le. lia.
Qed.

Lemma split_changes : forall ts, exists cs body, ts = map TState cs ++ body /\ starts_changing body = false.
Proof.
  induction ts as [|t ts (cs & body & -> & H)]; [exists [], []; auto|]. destruct t; try (eexists [], _; split; [reflexivity|reflexivity]).
  exists (c :: cs), body. auto.
Qed.
Lemma changes_events : forall cs, all_events (map TState cs) = map EvState cs.
Proof. induction cs as [|c cs IH]; [reflexivity|]. cbn. f_equal. exact IH. Qed.
Lemma all_events_app : forall a c, all_events (a ++ c) = all_events a ++ all_events c.
Proof. intros. apply flat_map_app. Qed.

Lemma node_all : forall n, node_at n.
Proof.
  induction n as [|n HN]; intros e es F Hl Hs He; [cbn in Hl; lia|]. cbn [length] in Hl. destruct (ends_cons _ _ _ He) as (F1 & H1 & H2).
  destruct e as [c|g| |v|ty pos|w h d|c|f]; try discriminate Hs; cbn [feed] in H1.
  - exists (TContent c), es, F1. repeat split; auto.
  - unfold SpecEvent.open in H1. destruct (done F) as [F0|] eqn:Ed; [|discriminate]. injection H1 as <-.
    assert (HF : F <> []) by (intros ->; discriminate Ed).
    destruct (marks g) as [m|] eqn:Em; cbn [option_map] in H2.
    + assert (Ha : forall lines es', match lines with Some ls => [EvFlow (EFStartLines ls)] | None => [] end ++ es' = es -> match lines, es' with None, EvFlow (EFStartLines _) :: _ => False | _, _ => True end ->
        (exists s, ends (Body s (Some (0, m)) :: F) es') ->
        exists t es1 F1, EvBegin g :: es = events t ++ es1 /\ proper t = true /\ (length es1 <= length es)%nat /\ after F t = Some F1 /\ ends F1 es1).
      { intros lines es' Hes Hx (s & He').
        assert (Hlen : (length es' <= length es)%nat) by (rewrite <- Hes, app_length; lia).
        destruct (rows_from n HN n (le_n n) es' s 0 m F ltac:(lia) ltac:(lia) He') as (cell & cells & rows & breaks & es1 & F2 & G1 & G2 & G3 & G4 & G5 & G6 & G7 & G8).
        exists (TTable g lines ((cell :: cells) :: rows) breaks), es1, F2. split; [|split; [|split; [lia|split; [|exact G8]]]].
        - cbn [events]. fold row_text. rewrite <- Hes, G1. cbn [app]. rewrite <- !app_assoc. reflexivity.
        - cbn [proper]. rewrite G5, andb_true_r. unfold table_ok. rewrite Em. cbn [forallb]. rewrite G3, andb_true_r. cbn [row_ok length].
          replace (N.of_nat (length cells) <=? m) with true by (symmetry; apply N.leb_le; lia). rewrite G4, Nat.eqb_refl. cbn [andb]. destruct lines; [reflexivity|].
          destruct cell as [|t cell]; [reflexivity|]. destruct t; try reflexivity. exfalso. rewrite G1 in Hx. destruct breaks, rows; try discriminate G4; unfold row_text in Hx; cbn [map between] in Hx; unfold row_events in Hx; destruct cells; cbn in Hx; exact Hx.
        - cbn [after]. destruct F; [congruence|]. exact G7. }
      destruct es as [|e0 es0]; [apply (Ha None []); [reflexivity|exact I|eauto]|].
      assert (Hlines : (exists ls, e0 = EvFlow (EFStartLines ls)) \/ match e0 with EvFlow (EFStartLines _) => False | _ => True end) by (destruct e0 as [| | | | | | |[]]; try (right; exact I); left; eauto).
      destruct Hlines as [[ls ->]|Hx].
      * apply (Ha (Some ls) es0); [reflexivity|exact I|]. destruct (ends_cons _ _ _ H2) as (F2 & H3 & H4). cbn [feed] in H3. injection H3 as <-. eauto.
      * apply (Ha None (e0 :: es0)); [reflexivity| |eauto]. destruct e0 as [| | | | | | |[]]; exact Hx.
    + destruct (body_from n HN n (le_n n) es true F ltac:(lia) HF H2) as (ts & es1 & F2 & G1 & G2 & G3 & G4 & G5). destruct (split_changes ts) as (cs & body & -> & Hc).
      rewrite forallb_app in G2. apply andb_prop in G2 as [_ G2]. rewrite all_events_app, changes_events, <- app_assoc in G1.
      destruct g; try discriminate Em.
      * exists (TGroup cs body), es1, F2. split; [cbn [events app]; rewrite G1; f_equal; rewrite <- !app_assoc; reflexivity|]. cbn [proper]. rewrite Hc, G2. split; [reflexivity|]. split; [lia|]. split; [destruct F; [congruence|exact G4]|exact G5].
      * exists (TFenced l r cs body), es1, F2. split; [cbn [events app]; rewrite G1; f_equal; rewrite <- !app_assoc; reflexivity|]. cbn [proper]. rewrite Hc, G2. split; [reflexivity|]. split; [lia|]. split; [destruct F; [congruence|exact G4]|exact G5].
  - unfold SpecEvent.open in H1. destruct (done F) as [F0|] eqn:Ed; [|discriminate]. injection H1 as <-.
    destruct (visual_arity v) as [|k] eqn:Ea; [destruct v; discriminate|].
    destruct (need_from n HN k es F ltac:(lia) H2) as (ts & es1 & F2 & G1 & G2 & G3 & G4 & G5 & G6).
    exists (TVisual v ts), es1, F2. split; [cbn [events app]; rewrite G1; reflexivity|]. cbn [proper]. rewrite Ea, G2, G3, Nat.eqb_refl. split; [reflexivity|]. split; [lia|]. split; [destruct F; exact G5|exact G6].
  - unfold SpecEvent.open in H1. destruct (done F) as [F0|] eqn:Ed; [|discriminate]. injection H1 as <-.
    destruct (script_arity ty) as [|k] eqn:Ea; [destruct ty; discriminate|].
    destruct (need_from n HN k es F ltac:(lia) H2) as (ts & es1 & F2 & G1 & G2 & G3 & G4 & G5 & G6).
    exists (TScript ty pos ts), es1, F2. split; [cbn [events app]; rewrite G1; reflexivity|]. cbn [proper]. rewrite Ea, G2, G3, Nat.eqb_refl. split; [reflexivity|]. split; [lia|]. split; [destruct F; exact G5|exact G6].
  - exists (TSpace w h d), es, F1. repeat split; auto.
  - exists (TState c), es, F1. repeat split; auto. cbn [after]. destruct F as [|[s r|k] F]; exact H1.
Qed.
End Trees.

Lemma stream_trees : forall es, well_formed es -> exists ts, all_events ts = es /\ forallb proper ts = true.
Proof.
  intros es [b H]. destruct (top_from b (length es) (node_all b _) es true (le_n _) H) as (ts & H1 & H2). eauto.
Qed.
