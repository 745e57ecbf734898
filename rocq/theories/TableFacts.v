(** * TableFacts: what the renderer writes for rows and cells. *)

From Coq Require Import List NArith ZArith Bool Lia.
From Verif Require Import Base Float32 Event Tables Prim Spans DisplayFacts Mathml SpecStream SpecXml XmlFacts SpecEvent RenderFacts.
Import ListNotations.
Open Scope N_scope.

Definition mtd : str := lit "mtd".
Definition mtr : str := lit "mtr".
Definition mtable : str := lit "mtable".
Definition mrow : str := lit "mrow".

Lemma complete_mtd : forall o k, complete o mtd k = true.
Proof. intros o k. unfold complete. destruct (arity o); reflexivity. Qed.
Lemma complete_mtr : forall o k, complete o mtr k = true.
Proof. intros o k. unfold complete. destruct (arity o); reflexivity. Qed.
Lemma complete_mtable : forall o k, complete o mtable k = true.
Proof. intros o k. unfold complete. destruct (arity o); reflexivity. Qed.
Lemma complete_mrow : forall o k, complete o mrow k = true.
Proof. intros o k. unfold complete. destruct (arity o); reflexivity. Qed.

(** Tags that add cells to a row, open a cell, go from a cell to the next, or add rows to a table. *)
Definition cells (o : xopts) (ts : list xtag) : Prop := forall k K, exists k',
  build o ((mtr, k) :: K) ts = Some ((mtr, k') :: K).
Definition to_cell (o : xopts) (ts : list xtag) : Prop := forall k K, exists k',
  build o ((mtr, k) :: K) ts = Some ((mtd, O) :: (mtr, k') :: K).
Definition next_td (o : xopts) (ts : list xtag) : Prop := forall j k K, exists k',
  build o ((mtd, j) :: (mtr, k) :: K) ts = Some ((mtd, O) :: (mtr, k') :: K).
Definition rows (o : xopts) (ts : list xtag) : Prop := forall k K, exists k',
  build o ((mtable, k) :: K) ts = Some ((mtable, k') :: K).
(** Tags that end a row. *)
Definition end_row (o : xopts) (ts : list xtag) : Prop := forall j k l K,
  build o ((mtd, j) :: (mtr, k) :: (mtable, l) :: K) ts = Some ((mtable, l) :: K).

Lemma cells_nil : forall o, cells o [].
Proof. intros o k K. exists k. reflexivity. Qed.
Lemma cells_app : forall o a b, cells o a -> cells o b -> cells o (a ++ b).
Proof.
  intros o a b Ha Hb k K. destruct (Ha k K) as (k1 & E1). destruct (Hb k1 K) as (k2 & E2).
  exists k2. now rewrite build_app, E1.
Qed.
Lemma cells_to : forall o a b, cells o a -> to_cell o b -> to_cell o (a ++ b).
Proof.
  intros o a b Ha Hb k K. destruct (Ha k K) as (k1 & E1). destruct (Hb k1 K) as (k2 & E2).
  exists k2. now rewrite build_app, E1.
Qed.
Lemma cells_one : forall o a, cells o [XO mtd a; XC mtd].
Proof. intros o a k K. exists (S k). cbn -[mtd mtr]. change (fits mtr mtd) with true. cbn -[mtd mtr]. now rewrite complete_mtd. Qed.
Lemma to_cell_one : forall o a, to_cell o [XO mtd a].
Proof. intros o a k K. exists (S k). reflexivity. Qed.
Lemma rows_nil : forall o, rows o [].
Proof. intros o k K. exists k. reflexivity. Qed.
Lemma rows_app : forall o a b, rows o a -> rows o b -> rows o (a ++ b).
Proof.
  intros o a b Ha Hb k K. destruct (Ha k K) as (k1 & E1). destruct (Hb k1 K) as (k2 & E2).
  exists k2. now rewrite build_app, E1.
Qed.

(** ** Horizontal lines *)

Lemma hline_val : forall l, val_ok (match l with LSolid => lit "menv-hline" | LDashed => lit "menv-hdashline" end) = true.
Proof. intros []; reflexivity. Qed.

Lemma hlines_spec : forall (o : ropts) lines, exists ts m atts,
  reads (strict o) (QOpen mtr) (env_horizontal_lines lines) ts m /\ in_open m mtr atts /\ rows o ts.
Proof.
  intros o lines. induction lines as [|l lines IH].
  - exists [], (QOpen mtr), []. split; [apply reads_nil|]. split; [now left|apply rows_nil].
  - cbn [env_horizontal_lines].
    set (v := match l with LSolid => lit "menv-hline" | LDashed => lit "menv-hdashline" end).
    assert (H1 : reads (strict o) (QOpen mtr) (hline_class l) [] (QTag mtr [(lit "class", v)] false)).
    { unfold hline_class. fold v. apply (reads_attr (strict o) (QOpen mtr) mtr [] (lit "class") v); try reflexivity; [now left|].
      unfold v. apply hline_val. }
    destruct lines as [|l' lines].
    + exists [], (QTag mtr [(lit "class", v)] false), [(lit "class", v)]. split; [exact H1|]. split; [apply in_open_tag|apply rows_nil].
    + destruct IH as (ts & m & atts & R & O & Hr).
      exists ([XO mtr [(lit "class", v)]; XO mtd [(lit "class", lit "menv-nonumber")]; XC mtd; XC mtr] ++ ts)%list, m, atts.
      split; [|split; [exact O|]].
      * eapply reads_cat with (t1 := []); [exact H1| |reflexivity].
        eapply reads_cat with (t1 := [XO mtr [(lit "class", v)]; XO mtd [(lit "class", lit "menv-nonumber")]; XC mtd; XC mtr]);
          [|exact R|reflexivity]. lexlit (strict o).
      * apply rows_app; [|exact Hr]. intros k K. exists (S k). cbn -[mtd mtr mtable].
        change (fits mtable mtr) with true. cbn -[mtd mtr mtable]. change (fits mtr mtd) with true.
        cbn -[mtd mtr mtable]. rewrite complete_mtd. cbn -[mtd mtr mtable]. now rewrite complete_mtr.
Qed.

(** ** Columns of an array *)

Definition count (cols : list array_col) : nat := length (filter is_col cols).

Lemma count_app : forall a b, count (a ++ b) = (count a + count b)%nat.
Proof. intros. unfold count. now rewrite filter_app, app_length. Qed.
Lemma count_seps : forall l, count (map ACSep l) = O.
Proof. induction l; cbn; auto. Qed.

(** The separators before the first column. *)
Lemma cols_split : forall cols, count cols <> O ->
  exists seps a rest, cols = (map ACSep seps ++ ACColumn a :: rest)%list.
Proof.
  induction cols as [|[a|l] cols IH]; intro H; [easy| |].
  - exists [], a, cols. reflexivity.
  - destruct (IH H) as (seps & a & rest & ->). exists (l :: seps), a, rest. reflexivity.
Qed.

Lemma leading_seps_spec : forall seps a rest, leading_seps (map ACSep seps ++ ACColumn a :: rest) = seps.
Proof. induction seps as [|l seps IH]; intros a rest; cbn; [reflexivity|]. now rewrite IH. Qed.

Lemma sep_pairs_spec : forall seps l a rest,
  sep_pairs (map ACSep (seps ++ [l]) ++ ACColumn a :: rest) = seps.
Proof.
  induction seps as [|x seps IH]; intros l a rest; [reflexivity|].
  specialize (IH l a rest). destruct seps as [|y seps]; cbn in IH |- *; [reflexivity|]. now rewrite IH.
Qed.

Definition trail (rest : list array_col) : nat := match rest with ACSep _ :: _ => 1 | _ => 0 end.
Definition trail_class (rest : list array_col) : list str := match rest with ACSep l :: _ => right_class l | _ => [] end.

Lemma skipn_exact : forall A (a b : list A), skipn (length a) (a ++ b) = b.
Proof. intros. rewrite skipn_app, skipn_all, Nat.sub_diag. reflexivity. Qed.

Lemma count_trail : forall rest, count (skipn (trail rest) rest) = count rest.
Proof. intros [|[a|l] rest]; reflexivity. Qed.
Lemma trail_le : forall rest, (trail rest <= length rest)%nat.
Proof. intros [|[a|l] rest]; cbn; lia. Qed.

(** ** Cells *)

Definition cell_word (w : str) : bool := val_ok w.
Lemma join_val : forall l, forallb val_ok l = true -> val_ok (join [32] l) = true.
Proof.
  induction l as [|x l IH]; intro H; [reflexivity|]. apply andb_prop in H as [H1 H2].
  destruct l as [|y l]; [exact H1|]. change (join [32] (x :: y :: l)) with (x ++ [32] ++ join [32] (y :: l))%list. rewrite !val_ok_app, H1, (IH H2). reflexivity.
Qed.

Lemma classes_val : forall a, forallb val_ok (align_class a) = true.
Proof. intros []; reflexivity. Qed.
Lemma right_val : forall l, forallb val_ok (right_class l) = true.
Proof. intros []; reflexivity. Qed.
Lemma left_val : forall l, forallb val_ok (left_class l) = true.
Proof. intros []; reflexivity. Qed.
Lemma trail_val : forall rest, forallb val_ok (trail_class rest) = true.
Proof. intros [|[a|l] rest]; try reflexivity. apply right_val. Qed.

Lemma cell_reads : forall st l, forallb val_ok l = true ->
  exists a, reads st (QOpen mtd) (cell_str l) [XO mtd a] QText.
Proof.
  intros st l H. unfold cell_str. destruct l as [|x l].
  - exists []. apply reads_gt. now left.
  - exists [(lit "class", join [32] (x :: l))].
    eapply reads_cat with (t1 := []); [apply (reads_attr st (QOpen mtd) mtd [] (lit "class") (join [32] (x :: l))); try reflexivity| |reflexivity].
    + now left.
    + now apply join_val.
    + apply reads_gt. right. now exists false.
Qed.

Lemma border_open_reads : forall (o : ropts) pre seps, val_ok pre = true ->
  exists ts, reads (strict o) (QOpen mtd)
    (flat_map (fun l => attr (lit "class") (pre ++ line_str l ++ lit " menv-border-only") ++ lit "></mtd><mtd")%list seps)
    ts (QOpen mtd)
  /\ cells o ts.
Proof.
  intros o pre seps Hp. induction seps as [|l seps (ts & R & C)]; [exists []; split; [apply reads_nil|apply cells_nil]|].
  cbn [flat_map]. set (v := (pre ++ line_str l ++ lit " menv-border-only")%list).
  assert (Hv : val_ok v = true) by (unfold v; rewrite !val_ok_app, Hp; destruct l; reflexivity).
  exists ([XO mtd [(lit "class", v)]; XC mtd] ++ ts)%list. split.
  - eapply reads_app; [|exact R]. eapply reads_cat with (t1 := []) (m1 := QTag mtd [(lit "class", v)] false); [| |reflexivity].
    + apply (reads_attr (strict o) (QOpen mtd) mtd [] (lit "class") v); try reflexivity; [now left|exact Hv].
    + lexlit (strict o).
  - apply cells_app; [apply cells_one|exact C].
Qed.

Lemma border_cells_reads : forall (o : ropts) seps, exists ts,
  reads (strict o) QText (border_cells seps) ts QText /\ cells o ts.
Proof.
  intros o seps. induction seps as [|l seps (ts & R & C)]; [exists []; split; [apply reads_nil|apply cells_nil]|].
  unfold border_cells. cbn [flat_map]. fold (border_cells seps). set (v := (lit "menv-right-" ++ line_str l ++ lit " menv-border-only")%list).
  assert (Hv : val_ok v = true) by (unfold v; rewrite !val_ok_app; destruct l; reflexivity).
  exists ([XO mtd [(lit "class", v)]; XC mtd] ++ ts)%list. split.
  - eapply reads_app; [|exact R].
    eapply reads_cat with (t1 := []) (m1 := QOpen mtd); [lexlit (strict o)| |reflexivity].
    eapply reads_cat with (t1 := []) (m1 := QTag mtd [(lit "class", v)] false); [| |reflexivity].
    + apply (reads_attr (strict o) (QOpen mtd) mtd [] (lit "class") v); try reflexivity; [now left|exact Hv].
    + lexlit (strict o).
  - apply cells_app; [apply cells_one|exact C].
Qed.

(** ** [array_newline], [array_align], [array_close_line] *)

Lemma newline_spec : forall (o : ropts) cols, count cols <> O -> exists s i ts,
  array_newline cols = Ok (s, i) /\ reads (strict o) QText s ts QText /\ to_cell o ts
  /\ (i <= length cols)%nat /\ S (count (skipn i cols)) = count cols.
Proof.
  intros o cols H. destruct (cols_split cols H) as (seps & a & rest & ->).
  assert (Hc : forall i, i = (length seps + 1 + trail rest)%nat ->
    (i <= length (map ACSep seps ++ ACColumn a :: rest))%nat /\
    S (count (skipn i (map ACSep seps ++ ACColumn a :: rest))) = count (map ACSep seps ++ ACColumn a :: rest)).
  { intros i ->. rewrite app_length, map_length. cbn [length]. pose proof (trail_le rest). split; [lia|].
    replace (length seps + 1 + trail rest)%nat with (length (map ACSep seps ++ [ACColumn a]) + trail rest)%nat
      by (rewrite app_length, map_length; reflexivity).
    replace (map ACSep seps ++ ACColumn a :: rest)%list with ((map ACSep seps ++ [ACColumn a]) ++ rest)%list at 1
      by (rewrite <- app_assoc; reflexivity).
    rewrite skipn_app. rewrite skipn_all2 by lia. rewrite Nat.add_comm, Nat.add_sub. cbn [app].
    rewrite count_trail, count_app, count_seps. reflexivity. }
  assert (E : exists seps' ext s i, array_newline (map ACSep seps ++ ACColumn a :: rest) = Ok (s, i) /\
    s = (lit "<mtd" ++ (flat_map (fun l => attr (lit "class") (lit "menv-left-" ++ line_str l ++ lit " menv-border-only")
                       ++ lit "></mtd><mtd") seps') ++ cell_str ext)%list /\ forallb val_ok ext = true /\ i = (length seps + 1 + trail rest)%nat).
  { destruct (rev seps) as [|l r] eqn:Er.
    - apply (f_equal (@rev line)) in Er. rewrite rev_involutive in Er. subst seps. cbn [map app length rev].
      exists [], (align_class a ++ trail_class rest)%list. unfold array_newline. cbn [sep_pairs flat_map length skipn].
      destruct rest as [|[a'|l'] rest]; cbn [trail trail_class app];
        (eexists _, _; split; [reflexivity|]; split; [cbn [app]; rewrite ?app_nil_r; reflexivity|];
         split; [rewrite forallb_app, classes_val; try apply right_val; reflexivity|reflexivity]).
    - apply (f_equal (@rev line)) in Er. rewrite rev_involutive in Er. cbn [rev] in Er. set (s0 := rev r) in *. clearbody s0. subst seps.
      exists s0, (left_class l ++ align_class a ++ trail_class rest)%list. unfold array_newline. rewrite sep_pairs_spec.
      assert (Es : skipn (length s0) (map ACSep (s0 ++ [l]) ++ ACColumn a :: rest) = ACSep l :: ACColumn a :: rest).
      { rewrite map_app, <- app_assoc. rewrite <- (map_length ACSep s0) at 1. apply skipn_exact. }
      rewrite Es. destruct rest as [|[a'|l'] rest]; cbn [trail trail_class];
        (eexists _, _; split; [reflexivity|]; split; [rewrite <- ?app_assoc, ?app_nil_r; reflexivity|];
         split; [rewrite !forallb_app, left_val, classes_val; try apply right_val; reflexivity|rewrite app_length; cbn [length]; lia]). }
  destruct E as (seps' & ext & s & i & E1 & E2 & E3 & E4). destruct (Hc i E4) as [L1 L2]. rewrite E1.
  destruct (border_open_reads o (lit "menv-left-") seps' eq_refl) as (ts & R & C).
  destruct (cell_reads (strict o) ext E3) as (at0 & R2).
  exists s, i, (ts ++ [XO mtd at0])%list. split; [reflexivity|]. split; [|split; [|split; [exact L1|exact L2]]].
  - rewrite E2. eapply reads_cat with (t1 := []) (m1 := QOpen mtd); [lexlit (strict o)| |reflexivity].
    eapply reads_app; [exact R|exact R2].
  - apply cells_to; [exact C|apply to_cell_one].
Qed.

Lemma align_spec : forall (o : ropts) cols i n, (i <= length cols)%nat -> count (skipn i cols) = S n -> exists s i' ts,
  array_align cols i = Ok (s, i') /\ reads (strict o) QText s ts QText /\ next_td o ts
  /\ (i < i' <= length cols)%nat /\ count (skipn i' cols) = n.
Proof.
  intros o cols i n Hi Hn. destruct (cols_split (skipn i cols)) as (seps & a & rest & Es); [lia|].
  unfold array_align. assert (E : Nat.ltb (length cols) i = false) by (apply Nat.ltb_ge; lia). rewrite E.
  rewrite Es, leading_seps_spec.
  assert (Es2 : skipn (i + length seps) cols = ACColumn a :: rest).
  { rewrite Nat.add_comm. rewrite <- (firstn_skipn i cols) at 1. rewrite Es.
    assert (Li : length (firstn i cols) = i) by (rewrite firstn_length; lia).
    rewrite skipn_app, Li. rewrite skipn_all2 by lia. replace (length seps + i - i)%nat with (length (map ACSep seps)) by (rewrite map_length; lia).
    cbn [app]. apply skipn_exact. }
  rewrite Es2. destruct (border_open_reads o (lit "menv-right-") seps eq_refl) as (ts & R & C).
  assert (E3 : forallb val_ok (align_class a ++ trail_class rest) = true) by (rewrite forallb_app, classes_val; apply trail_val).
  destruct (cell_reads (strict o) _ E3) as (at0 & R2).
  assert (Len : length cols = (i + (length seps + S (length rest)))%nat).
  { rewrite <- (firstn_skipn i cols), Es, !app_length, map_length, firstn_length. cbn [length]. lia. }
  set (s := ((lit "</mtd><mtd" ++ flat_map (fun l => attr (lit "class") (lit "menv-right-" ++ line_str l ++ lit " menv-border-only")
                         ++ lit "></mtd><mtd") seps) ++ cell_str (align_class a ++ trail_class rest))%list).
  set (i' := (i + length seps + 1 + trail rest)%nat).
  exists s, i', ([XC mtd] ++ ts ++ [XO mtd at0])%list. split; [|split; [|split; [|split]]].
  - unfold s, i'. destruct rest as [|[a'|l'] rest]; cbn [trail trail_class]; rewrite ?app_nil_r; do 2 f_equal; lia.
  - unfold s. rewrite <- app_assoc. eapply reads_cat with (t1 := [XC mtd]) (m1 := QOpen mtd); [lexlit (strict o)| |reflexivity].
    eapply reads_app; [exact R|exact R2].
  - intros j k K. destruct (cells_to o ts [XO mtd at0] C (to_cell_one o at0) k K) as (k' & Ek). exists k'.
    rewrite build_app. cbn [build]. rewrite str_eqb_refl, complete_mtd. exact Ek.
  - unfold i'. pose proof (trail_le rest). lia.
  - assert (Es3 : skipn i' cols = skipn (trail rest) rest).
    { unfold i'. replace (i + length seps + 1 + trail rest)%nat with ((1 + trail rest) + (i + length seps))%nat by lia.
      rewrite <- (firstn_skipn (i + length seps) cols). rewrite Es2.
      assert (L : length (firstn (i + length seps) cols) = (i + length seps)%nat) by (rewrite firstn_length; lia).
      rewrite skipn_app, L. rewrite skipn_all2 by lia. replace (1 + trail rest + (i + length seps) - (i + length seps))%nat with (S (trail rest)) by lia.
      reflexivity. }
    rewrite Es3, count_trail. rewrite Es, count_app, count_seps in Hn. cbn in Hn. unfold count. lia.
Qed.

Lemma close_line_spec : forall (o : ropts) cols i, (i <= length cols)%nat -> exists s ts,
  array_close_line cols i = Ok s /\ reads (strict o) QText s ts (QOpen mtr) /\ end_row o ts.
Proof.
  intros o cols i Hi. unfold array_close_line. assert (E : Nat.ltb (length cols) i = false) by (apply Nat.ltb_ge; lia). rewrite E.
  destruct (border_cells_reads o (leading_seps (skipn i cols))) as (ts & R & C).
  eexists _, ([XC mtd] ++ ts ++ [XC mtr])%list. split; [reflexivity|]. split.
  - eapply reads_app; [lexlit (strict o)|]. eapply reads_app; [exact R|]. lexlit (strict o).
  - intros j k l K. rewrite build_app. cbn [build]. rewrite str_eqb_refl, complete_mtd. cbn [andb].
    rewrite build_app. destruct (C k ((mtable, l) :: K)) as (k' & ->). cbn [build]. now rewrite str_eqb_refl, complete_mtr.
Qed.

(** The position in the columns after [c] alignment marks. *)
Fixpoint array_pos (cols : list array_col) (c : nat) : option nat :=
  match c with
  | O => match array_newline cols with Ok (_, i) => Some i | _ => None end
  | S c' =>
      match array_pos cols c' with
      | Some i => match array_align cols i with Ok (_, i') => Some i' | _ => None end
      | None => None
      end
  end.

Lemma array_pos_spec : forall (o : ropts) cols c, (c < count cols)%nat -> exists i,
  array_pos cols c = Some i /\ (i <= length cols)%nat /\ (count (skipn i cols) + S c = count cols)%nat.
Proof.
  intros o cols c. induction c as [|c IH]; intro H.
  - destruct (newline_spec o cols) as (s & i & ts & E & _ & _ & L & C); [lia|]. exists i. cbn. rewrite E. repeat split; auto. lia.
  - destruct IH as (i & E & L & C); [lia|]. destruct (count (skipn i cols)) as [|n] eqn:En; [lia|].
    destruct (align_spec o cols i n L En) as (s & i' & ts & E' & _ & _ & L' & C'). exists i'. cbn [array_pos]. rewrite E, E'.
    repeat split; auto; lia.
Qed.

Lemma array_pos_grows : forall (o : ropts) cols d c i j, (c + d < count cols)%nat ->
  array_pos cols c = Some i -> array_pos cols (c + d) = Some j -> (i + d <= j)%nat.
Proof.
  intros o cols. induction d as [|d IH]; intros c i j H Hi Hj.
  - rewrite Nat.add_0_r in Hj. assert (i = j) by congruence. lia.
  - replace (c + S d)%nat with (S (c + d)) in Hj by lia. cbn [array_pos] in Hj.
    destruct (array_pos_spec o cols (c + d)) as (k & Ek & Lk & Ck); [lia|]. rewrite Ek in Hj.
    assert (i + d <= k)%nat by (apply (IH c i k); auto; lia).
    destruct (count (skipn k cols)) as [|n] eqn:En; [lia|].
    destruct (align_spec o cols k n Lk En) as (s & k' & ts & E & _ & _ & L & _). rewrite E in Hj. injection Hj as <-. lia.
Qed.

(** An empty row goes through as many cells as the row before it. *)
Lemma empty_row_spec : forall (o : ropts) cols d c i j fuel, (c + d < count cols)%nat -> (d <= fuel)%nat ->
  array_pos cols c = Some i -> array_pos cols (c + d) = Some j -> exists s ts,
  empty_row fuel cols i j = Ok (s, j) /\ reads (strict o) QText s ts QText
  /\ forall a k K, exists b k', build o ((mtd, a) :: (mtr, k) :: K) ts = Some ((mtd, b) :: (mtr, k') :: K).
Proof.
  intros o cols. induction d as [|d IH]; intros c i j fuel H Hf Hi Hj.
  - rewrite Nat.add_0_r in Hj. assert (i = j) by congruence. subst j. exists [], []. unfold empty_row.
    destruct fuel; rewrite Nat.ltb_irrefl; (split; [reflexivity|]; split; [apply reads_nil|]; intros; eexists _, _; reflexivity).
  - pose proof (array_pos_grows o cols (S d) c i j H Hi Hj) as Hg.
    destruct fuel as [|fuel]; [lia|]. cbn [empty_row]. assert (E : Nat.ltb i j = true) by (apply Nat.ltb_lt; lia). rewrite E.
    destruct (array_pos_spec o cols c) as (i0 & E0 & L0 & C0); [lia|]. assert (i0 = i) by congruence. subst i0.
    destruct (count (skipn i cols)) as [|n] eqn:En; [lia|].
    destruct (align_spec o cols i n L0 En) as (s1 & i1 & t1 & E1 & R1 & N1 & L1 & C1). rewrite E1.
    destruct (IH (S c) i1 j fuel) as (s2 & t2 & E2 & R2 & B2); [lia|lia| |replace (S c + d)%nat with (c + S d)%nat by lia; exact Hj|].
    + cbn [array_pos]. now rewrite Hi, E1.
    + rewrite E2. exists (s1 ++ s2)%list, (t1 ++ t2)%list. split; [reflexivity|]. split; [eapply reads_app; eassumption|].
      intros a k K. destruct (N1 a k K) as (k1 & Ek1). destruct (B2 O k1 K) as (b & k2 & Ek2). exists b, k2. now rewrite build_app, Ek1.
Qed.
