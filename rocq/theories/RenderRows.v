(** * RenderRows: the rows and cells of a table. *)

From Coq Require Import List NArith ZArith Bool Lia.
From Verif Require Import Base Float32 Event Tables Prim FontTable Spans DisplayFacts Mathml SpecEvent SpecStream SpecXml XmlFacts RenderFacts TableFacts RenderTree SpecDraw RenderDraw.
Import ListNotations.
Open Scope N_scope.
Open Scope sm_scope.
Open Scope list_scope.

(** ** Columns *)

Notation column := (col_align * list line)%type.
Definition spell (cs : list column) : list array_col := flat_map (fun c => ACColumn (fst c) :: map ACSep (snd c)) cs.

Lemma columns_spell : forall cols, cols = map ACSep (fst (columns cols)) ++ spell (snd (columns cols)).
Proof.
  induction cols as [|[a|l] cols IH]; [reflexivity| |]; cbn [columns]; destruct (columns cols) as [ls cs]; cbn [fst snd] in *.
  - cbn [map app spell flat_map fst snd]. fold (spell cs). rewrite <- IH. reflexivity.
  - cbn [map app]. rewrite <- IH. reflexivity.
Qed.
Lemma columns_count : forall cols, length (snd (columns cols)) = count cols.
Proof.
  induction cols as [|[a|l] cols IH]; [reflexivity| |]; cbn [columns]; destruct (columns cols) as [ls cs]; cbn [fst snd] in *; unfold count in *; cbn [filter is_col length]; lia.
Qed.

(** The lines and columns that are left after the cell number [n]. *)
Definition left_after (cs : list column) (n : nat) : list line * list column :=
  match skipn n cs with c :: cs' => (tl (snd c), cs') | [] => ([], []) end.
Lemma left_next : forall cs n e c cs', left_after cs n = (e, c :: cs') -> left_after cs (S n) = (tl (snd c), cs').
Proof.
  intros cs n e c cs' H. unfold left_after in *. destruct (skipn n cs) as [|c1 r] eqn:E; [discriminate|]. injection H as _ ->.
  assert (X : skipn (S n) cs = c :: cs').
  { clear -E. revert cs E. induction n as [|n IH]; intros cs E. - cbn in *. subst. reflexivity. - destruct cs as [|c0 cs]; [discriminate|]. cbn [skipn] in *. apply IH. exact E. }
  rewrite X. reflexivity.
Qed.
Lemma left_length : forall cs n, length (snd (left_after cs n)) = (length cs - S n)%nat.
Proof.
  intros cs n. unfold left_after. pose proof (skipn_length n cs) as H. destruct (skipn n cs) as [|c r]; cbn [length snd] in *; lia.
Qed.

(** The index [i] is behind the columns that are not left. *)
Definition at_col (cols : list array_col) (i : nat) (left : list line * list column) : Prop :=
  (i <= length cols)%nat /\ skipn i cols = map ACSep (fst left) ++ spell (snd left).

Definition first_line (ls : list line) : list str := match ls with l :: _ => right_class l | [] => [] end.
Definition lead_class (ls : list line) : list str := match ls with [] => [] | _ => left_class (last ls LSolid) end.
Definition array_first (cols : list array_col) : str :=
  let '(ls, cs) := columns cols in
  match cs with
  | (a, l) :: _ => lit "<mtd" ++ flat_map (fun l => attr (lit "class") (lit "menv-left-" ++ line_str l ++ lit " menv-border-only") ++ lit "></mtd><mtd") (removelast ls) ++
      cell_str (lead_class ls ++ align_class a ++ first_line l)
  | [] => []
  end.
Definition array_sep (left : list line * list column) : str :=
  match snd left with
  | (a, l) :: _ => lit "</mtd>" ++ border_cells (fst left) ++ lit "<mtd" ++ cell_str (align_class a ++ first_line l)
  | [] => []
  end.
Definition array_end (left : list line * list column) : str := lit "</mtd>" ++ border_cells (fst left).

Lemma leading_left : forall e cs, leading_seps (map ACSep e ++ spell cs) = e.
Proof.
  induction e as [|l e IH]; intros cs; [destruct cs as [|[a l] cs]; reflexivity|]. cbn [map app leading_seps]. rewrite IH. reflexivity.
Qed.
Lemma skipn_add : forall A n m (l : list A), skipn (n + m) l = skipn m (skipn n l).
Proof. intros A n. induction n as [|n IH]; intros m l; [reflexivity|]. destruct l as [|x l]; [cbn; rewrite skipn_nil; reflexivity|]. cbn [Nat.add skipn]. apply IH. Qed.
Lemma skipn_lt : forall A (l : list A) n x r, skipn n l = x :: r -> (n < length l)%nat.
Proof. intros A l n x r H. pose proof (skipn_length n l) as H1. rewrite H in H1. cbn [length] in H1. lia. Qed.

Lemma align_is : forall cols i e c cs, at_col cols i (e, c :: cs) -> exists i',
  array_align cols i = Ok (array_sep (e, c :: cs), i') /\ at_col cols i' (tl (snd c), cs).
Proof.
  intros cols i e [a l] cs [Hi Hs]. cbn [fst snd] in Hs. unfold array_align. replace (Nat.ltb (length cols) i) with false by (symmetry; apply Nat.ltb_ge; exact Hi).
  rewrite Hs, leading_left. cbv zeta.
  assert (H : skipn (i + length e) cols = ACColumn a :: map ACSep l ++ spell cs).
  { rewrite skipn_add, Hs. replace (length e) with (length (map ACSep e)) by apply map_length. rewrite skipn_exact. reflexivity. }
  rewrite H.
  assert (Hb : lit "</mtd><mtd" ++ flat_map (fun l => attr (lit "class") (lit "menv-right-" ++ line_str l ++ lit " menv-border-only") ++ lit "></mtd><mtd") e =
    lit "</mtd>" ++ border_cells e ++ lit "<mtd").
  { change (lit "</mtd><mtd") with (lit "</mtd>" ++ lit "<mtd"). rewrite <- app_assoc. f_equal. clear. induction e as [|x e IH]; [reflexivity|]. cbn [flat_map border_cells].
    fold (border_cells e). change (lit "></mtd><mtd") with (lit "></mtd>" ++ lit "<mtd"). rewrite <- !app_assoc. do 3 f_equal. exact IH. }
  rewrite Hb. pose proof (skipn_lt _ _ _ _ _ H) as Hlt.
  destruct l as [|l0 l].
  - destruct cs as [|[a1 l1] cs]; cbn [map app spell flat_map] in *; eexists; (split; [unfold array_sep; cbn [snd fst first_line]; rewrite ?app_nil_r, <- !app_assoc; reflexivity|]);
      (split; [lia|]; cbn [fst snd tl map app]; rewrite (skipn_add _ (i + length e) 1), H; reflexivity).
  - cbn [map app] in *. eexists. split; [unfold array_sep; cbn [snd fst first_line]; rewrite <- !app_assoc; reflexivity|].
    split; [|cbn [fst snd tl map app]; rewrite (skipn_add _ (i + length e) 2), H; reflexivity].
    assert (X : skipn (S (i + length e)) cols = ACSep l0 :: map ACSep l ++ spell cs).
    { replace (S (i + length e)) with ((i + length e) + 1)%nat by lia. rewrite skipn_add, H. reflexivity. }
    pose proof (skipn_lt _ _ _ _ _ X). lia.
Qed.

Lemma close_is : forall cols i left, at_col cols i left -> (i <= length cols)%nat /\ leading_seps (skipn i cols) = fst left.
Proof. intros cols i left [Hi Hs]. split; [exact Hi|]. rewrite Hs. apply leading_left. Qed.

Lemma last_split : forall (ls : list line), ls <> [] -> ls = removelast ls ++ [last ls LSolid].
Proof. intros ls H. apply app_removelast_last. exact H. Qed.

Lemma newline_is : forall cols, count cols <> O -> exists i,
  array_newline cols = Ok (array_first cols, i) /\ at_col cols i (left_after (snd (columns cols)) 0).
Proof.
  intros cols Hc. pose proof (columns_spell cols) as Hs. pose proof (columns_count cols) as Hn. unfold array_first. destruct (columns cols) as [ls cs]. cbn [fst snd] in *.
  destruct cs as [|[a l] cs]; [cbn in Hn; lia|]. unfold left_after. cbn [skipn snd]. cbn [spell flat_map fst snd] in Hs. fold (spell cs) in Hs. clear Hn Hc.
  unfold array_newline.
  assert (Hp : sep_pairs cols = removelast ls /\ skipn (length (removelast ls)) cols = match ls with [] => [] | _ => [ACSep (last ls LSolid)] end ++ ACColumn a :: map ACSep l ++ spell cs).
  { destruct ls as [|l0 ls0] eqn:El.
    - rewrite Hs. split; reflexivity.
    - rewrite <- El in *. assert (Hne : ls <> []) by (rewrite El; discriminate). clear El l0 ls0. pose proof (last_split ls Hne) as Hl. split.
      + rewrite Hs, Hl at 1. cbn [app]. apply sep_pairs_spec.
      + rewrite Hs. rewrite Hl at 2. rewrite map_app, <- app_assoc. replace (length (removelast ls)) with (length (map ACSep (removelast ls))) by apply map_length. rewrite skipn_exact. destruct ls; [congruence|]. reflexivity. }
  destruct Hp as [Hp1 Hp2]. rewrite Hp1, Hp2. cbv zeta. set (n := length (removelast ls)) in *.
  assert (K : forall m rest, skipn (n + m) cols = rest -> (n + m <= length cols)%nat -> at_col cols (n + m) (tl l, cs) <-> rest = map ACSep (tl l) ++ spell cs).
  { intros m rest H1 H2. unfold at_col. rewrite H1. cbn [fst snd]. intuition. }
  assert (Hlen : (n + length (match ls with [] => [] | _ => [ACSep (last ls LSolid)] end ++ ACColumn a :: map ACSep l ++ spell cs) = length cols)%nat).
  { rewrite <- Hp2, skipn_length. assert (n <= length cols)%nat; [|lia]. pose proof (skipn_length n cols) as X. rewrite Hp2, app_length in X. cbn [length] in X. lia. }
  rewrite app_length in Hlen. cbn [length] in Hlen. rewrite app_length, map_length in Hlen.
  destruct ls as [|l0 ls0]; cbn [app] in *.
  - destruct l as [|x l]; [destruct cs as [|[a1 l1] cs]|]; cbn [map app spell flat_map fst snd] in *;
      eexists; (split; [cbn [lead_class first_line]; rewrite <- ?app_assoc, ?app_nil_r; reflexivity|]); split; rewrite ?skipn_add, ?Hp2; try reflexivity; cbn [length] in Hlen; lia.
  - change (lead_class (l0 :: ls0)) with (left_class (last (l0 :: ls0) LSolid)). set (la := last (l0 :: ls0) LSolid) in *.
    destruct l as [|x l]; [destruct cs as [|[a1 l1] cs]|]; cbn [map app spell flat_map fst snd] in *;
      eexists; (split; [cbn [first_line]; rewrite <- ?app_assoc, ?app_nil_r; reflexivity|]); split; rewrite ?skipn_add, ?Hp2; try reflexivity; cbn [length] in Hlen; lia.
Qed.

(** ** The text of a row *)

Definition first_text (g : grouping) : str := match g with GArray cols => array_first cols | _ => lit "<mtd>" end.
Definition sep_text (g : grouping) (n : nat) : str :=
  match g with GArray cols => array_sep (left_after (snd (columns cols)) n) | _ => next_cell end.
Definition end_text (g : grouping) (n : nat) : str :=
  match g with GArray cols => array_end (left_after (snd (columns cols)) n) | _ => lit "</mtd>" end.
Fixpoint open_cells (g : grouping) (n : nat) (x : list xml) (xs : list (list xml)) : str :=
  prints x ++ match xs with [] => [] | y :: ys => sep_text g n ++ open_cells g (S n) y ys end.

Lemma cell_print : forall cl x, print (cell cl x) = lit "<mtd" ++ cell_str cl ++ prints x ++ lit "</mtd>".
Proof.
  intros cl x. unfold cell. rewrite print_elem. unfold cell_str. destruct cl as [|c cl]; [same_text|].
  rewrite <- join_joined. cbn [class print_atts flat_map print_att]. unfold attr, quoted, q. same_text.
Qed.
Lemma borders_print : forall e, prints (map (border (lit "right")) e) = border_cells e.
Proof.
  induction e as [|l e IH]; [reflexivity|]. cbn [map]. rewrite prints_cons, IH. unfold border. rewrite cell_print. cbn [border_cells flat_map]. fold (border_cells e). rewrite app_assoc. f_equal.
  unfold cell_str. change (line_name l) with (line_str l). cbn [join prints flat_map]. unfold attr, q. same_text.
Qed.
Lemma left_borders_print : forall e, prints (map (border (lit "left")) e) ++ lit "<mtd" =
  lit "<mtd" ++ flat_map (fun l => attr (lit "class") (lit "menv-left-" ++ line_str l ++ lit " menv-border-only") ++ lit "></mtd><mtd") e.
Proof.
  induction e as [|l e IH]; [reflexivity|]. cbn [map flat_map]. rewrite prints_cons. rewrite <- app_assoc. rewrite IH. unfold border. rewrite cell_print.
  unfold cell_str. change (line_name l) with (line_str l). cbn [join prints flat_map]. unfold attr, q. same_text.
Qed.

Lemma array_cells_nil : forall lead cs, array_cells lead cs [] = [].
Proof. intros lead [|[a l] cs]; reflexivity. Qed.

Lemma array_tail : forall cols xs n x, (n + length xs < length (snd (columns cols)))%nat ->
  prints x ++ lit "</mtd>" ++ prints (map (border (lit "right")) (fst (left_after (snd (columns cols)) n)) ++ array_cells [] (snd (left_after (snd (columns cols)) n)) xs) =
  open_cells (GArray cols) n x xs ++ end_text (GArray cols) (n + length xs).
Proof.
  intros cols. set (cs := snd (columns cols)). induction xs as [|y ys IH]; intros n x H; cbn [length] in H.
  - cbn [open_cells length]. rewrite Nat.add_0_r, array_cells_nil, !app_nil_r, borders_print. fold cs. unfold end_text, array_end. fold cs. reflexivity.
  - cbn [open_cells]. pose proof (left_length cs n) as Hl. destruct (left_after cs n) as [e [|[a l] cs']] eqn:E; cbn [fst snd length] in *; [lia|].
    pose proof (left_next cs n e (a, l) cs' E) as En. cbn [snd] in En.
    cbn [length]. replace (n + S (length ys))%nat with (S n + length ys)%nat by lia. rewrite <- !app_assoc. rewrite <- IH by lia. rewrite En. cbn [fst snd].
    cbn [array_cells]. rewrite prints_app, borders_print, prints_cons, cell_print. unfold sep_text, array_sep. fold cs. rewrite E. cbn [fst snd app].
    change (match l with [] => [] | l0 :: _ => [lit "menv-right-" ++ line_name l0] end) with (first_line l). change (align_name a) with (align_class a). rewrite <- !app_assoc. reflexivity.
Qed.

Definition row_fits (g : grouping) (n : nat) : Prop := match g with GArray cols => (n < count cols)%nat | _ => True end.

Lemma row_text : forall g x xs, row_fits g (length xs) -> prints (row_cells g (x :: xs)) = first_text g ++ open_cells g 0 x xs ++ end_text g (length xs).
Proof.
  intros g x xs Hf.
  assert (Hplain : match g with GArray _ => False | _ => True end -> prints (map (cell []) (x :: xs)) = lit "<mtd>" ++ open_cells g 0 x xs ++ lit "</mtd>").
  { intros Hg. clear Hf. generalize O. revert x. induction xs as [|y ys IH]; intros x n.
    - cbn [map]. rewrite prints_cons, cell_print. cbn [open_cells prints flat_map cell_str]. same_text.
    - cbn [map] in *. rewrite prints_cons, cell_print, (IH y (S n)). cbn [open_cells]. assert (Hs : sep_text g n = next_cell) by (destruct g; try contradiction; reflexivity). rewrite Hs. cbn [cell_str]. unfold next_cell. same_text. }
  destruct g; try (apply Hplain; exact I). clear Hplain. cbn [row_cells row_fits first_text] in *. unfold array_row, array_first. pose proof (array_tail cols xs 0 x) as Ht. rewrite columns_count in Ht. specialize (Ht Hf).
  pose proof (columns_count cols) as Hn. unfold left_after in Ht. cbn [skipn] in Ht. destruct (columns cols) as [ls cs]. cbn [fst snd] in *. destruct cs as [|[a l] cs]; [cbn in Hn; lia|]. cbn [fst snd] in Ht.
  cbn [array_cells]. rewrite !prints_app, prints_cons, cell_print. cbn [Nat.add] in Ht. rewrite <- Ht. rewrite !prints_app.
  rewrite !app_assoc. rewrite left_borders_print. change (match ls with [] => [] | _ :: _ => [lit "menv-left-" ++ line_name (last ls LSolid)] end) with (lead_class ls).
  change (match l with [] => [] | l0 :: _ => [lit "menv-right-" ++ line_name l0] end) with (first_line l). change (align_name a) with (align_class a). rewrite <- !app_assoc. reflexivity.
Qed.

Lemma lines_text : forall ls cells, prints (with_lines ls cells) = lit "<mtr" ++ env_horizontal_lines ls ++ [62] ++ prints cells ++ lit "</mtr>".
Proof.
  intros ls cells. unfold with_lines. induction ls as [|l [|l1 ls] IH].
  - cbn. rewrite !app_nil_r. reflexivity.
  - cbn [removelast map app last]. rewrite prints_cons, print_elem. unfold line_class, class. cbn [print_atts flat_map print_att env_horizontal_lines prints]. unfold hline_class, attr, quoted, q. destruct l; same_text.
  - cbn [removelast]. cbn [map app]. rewrite prints_cons, print_elem. change (last (l :: l1 :: ls) LSolid) with (last (l1 :: ls) LSolid).
    cbn [removelast] in IH. rewrite IH. cbn [env_horizontal_lines]. unfold line_class, class. cbn [print_atts flat_map print_att prints]. unfold unnumbered. rewrite cell_print.
    unfold hline_class, attr, quoted, q. cbn [cell_str join prints flat_map]. unfold attr, q. destruct l; same_text.
Qed.

(** ** The renderer in a table *)

Section Config.
Variable cfg : render_config.
Notation drawn := (SpecDraw.draw (block_of cfg) (upright_of cfg) glyph_of).
Notation good := (good cfg).
Notation steps := (steps cfg).
Notation reaches := (reaches cfg).

(** The group on the stack while the renderer is in the cell number [n] of a row. *)
Definition in_col (g : grouping) (n : nat) (eg : egroup) : Prop :=
  match g with
  | GArray cols => exists i, eg = EGArray cols i /\ array_pos cols n = Some i /\ at_col cols i (left_after (snd (columns cols)) n) /\ (n < count cols)%nat
  | GAlign _ | GAligned => eg = EGAlign
  | GMatrix _ => eg = EGMatrix
  | GCases lf => eg = EGCases false lf
  | GAlignat p _ | GAlignedat p => eg = EGAlignat p (N.of_nat n)
  | GSplit => eg = EGSplit false
  | GSubArray _ => eg = EGSubArray
  | GGather _ | GGathered => eg = EGGather
  | GMultline => eg = EGMultline
  | GEquation _ => eg = EGEquation
  | GNormal | GLeftRight _ _ => False
  end.

Lemma plain_state : default_state = st_of plain_look.
Proof. reflexivity. Qed.

Lemma in_col_fits : forall g n eg, in_col g n eg -> row_fits g n.
Proof. intros g n eg H. destruct g; try exact I. destruct H as (i & _ & _ & _ & H). exact H. Qed.

Lemma align_step : forall g m n eg r E s S0 p o es, marks g = Some m -> fine None (EvBegin g) -> N.of_nat n < m -> in_col g n eg ->
  is_at r (ENGroup eg :: E) (s :: S0) p o es ->
  gives write_alignment r tt (fun r1 => exists eg', in_col g (S n) eg' /\ is_at r1 (ENGroup eg' :: E) (st_of plain_look :: S0) None (o ++ sep_text g n) es).
Proof.
  intros g m n eg r E s S0 p o es Hm Hf Hn Hc A. unfold write_alignment. step A. step A. eapply gives_bind, gives_get. pose proof A as (-> & _). rewrite plain_state in A.
  destruct g; cbn [marks in_col fine sep_text] in *; try discriminate Hm; injection Hm as <-; try lia; subst eg || destruct Hc as (i & -> & Hi & Ha & Hk);
    try (eapply gives_more; [apply gives_wr; exact A|]; intros r9 A9; cbn beta in A9; eexists; split; [reflexivity|exact A9]).
  - (* array *)
    assert (Hx : exists c cs', left_after (snd (columns cols)) n = (fst (left_after (snd (columns cols)) n), c :: cs')).
    { pose proof (left_length (snd (columns cols)) n) as Hl. rewrite columns_count in Hl. unfold count in Hl, Hk. destruct (left_after (snd (columns cols)) n) as [e [|c cs']]; cbn [fst snd length] in *; [lia|eauto]. }
    destruct Hx as (c & cs' & Hx). set (e := fst _) in Hx. rewrite Hx in Ha |- *. destruct (align_is cols i e c cs' Ha) as (i' & H1 & H2).
    eapply gives_bind. eapply gives_of_res; [exact H1|]. cbv beta iota. step A. eapply gives_more; [eapply gives_set_envs; exact A|]. clear A. intros r9 A. cbn beta in A.
    exists (EGArray cols i'). split; [|exact A]. exists i'. split; [reflexivity|]. split; [cbn [array_pos]; rewrite Hi, H1; reflexivity|]. split; [rewrite (left_next _ _ _ _ _ Hx); exact H2|]. unfold count in *. lia.
  - assert (H1 : (N.of_nat n / 2 <=? pairs) = true) by (apply N.leb_le, N.div_le_upper_bound; lia). rewrite H1.
    assert (H2 : (N.of_nat n =? 65535) = false) by (apply N.eqb_neq; lia). rewrite H2. step A. eapply gives_more; [apply gives_wr; exact A|]. clear A. intros r9 A. cbn beta in A.
    eexists. split; [|exact A]. rewrite Nat2N.inj_succ, N.add_1_r. reflexivity.
  - assert (H1 : (N.of_nat n / 2 <=? pairs) = true) by (apply N.leb_le, N.div_le_upper_bound; lia). rewrite H1.
    assert (H2 : (N.of_nat n =? 65535) = false) by (apply N.eqb_neq; lia). rewrite H2. step A. eapply gives_more; [apply gives_wr; exact A|]. clear A. intros r9 A. cbn beta in A.
    eexists. split; [|exact A]. rewrite Nat2N.inj_succ, N.add_1_r. reflexivity.
Qed.

Lemma empty_is : forall cols d c i j fuel, (c + d < count cols)%nat -> (d <= fuel)%nat ->
  array_pos cols c = Some i -> array_pos cols (c + d) = Some j -> at_col cols i (left_after (snd (columns cols)) c) ->
  exists s, empty_row fuel cols i j = Ok (s, j) /\ s = open_cells (GArray cols) c [] (repeat [] d).
Proof.
  intros cols. induction d as [|d IH]; intros c i j fuel H Hf Hi Hj Ha.
  - rewrite Nat.add_0_r in Hj. assert (i = j) by congruence. subst j. exists []. unfold empty_row. destruct fuel; rewrite Nat.ltb_irrefl; split; reflexivity.
  - pose proof (array_pos_grows (mkRopts None (mkOpts false false)) cols (S d) c i j H Hi Hj) as Hg.
    destruct fuel as [|fuel]; [lia|]. cbn [empty_row]. assert (E : Nat.ltb i j = true) by (apply Nat.ltb_lt; lia). rewrite E.
    pose proof (left_length (snd (columns cols)) c) as Hl. rewrite columns_count in Hl. destruct (left_after (snd (columns cols)) c) as [e [|cc cs']] eqn:Ex; cbn [fst snd length] in *; [lia|].
    destruct (align_is cols i e cc cs' Ha) as (i' & H1 & H2). rewrite H1.
    destruct (IH (S c) i' j fuel) as (s & E2 & Es); [lia|lia|cbn [array_pos]; rewrite Hi, H1; reflexivity|replace (S c + d)%nat with (c + S d)%nat by lia; exact Hj|rewrite (left_next _ _ _ _ _ Ex); exact H2|].
    rewrite E2. eexists. split; [reflexivity|]. rewrite Es. cbn [repeat open_cells]. unfold sep_text. rewrite Ex. reflexivity.
Qed.

Lemma gap_plain : forall g n d, match g with GArray _ => False | _ => True end ->
  prints (gap g n (Some d)) = lit "<mtr" ++ attr (lit "style") (lit "height: " ++ dim_display d) ++ lit ">" ++ lit "<mtd class=""menv-nonumber""></mtd></mtr>".
Proof.
  intros g n d Hg. unfold gap. cbn [opt]. rewrite prints_cons, print_elem.
  replace (match g with GArray _ => row_cells g (repeat [] n) | _ => [unnumbered] end) with [unnumbered] by (destruct g; try contradiction; reflexivity).
  rewrite prints_cons. unfold unnumbered. rewrite cell_print. cbn [prints flat_map cell_str join print_atts print_att]. unfold attr, quoted, q. same_text.
Qed.
Lemma gap_array : forall cols n d, (n < count cols)%nat ->
  prints (gap (GArray cols) (S n) (Some d)) = lit "<mtr" ++ attr (lit "style") (lit "height: " ++ dim_display d) ++ lit ">" ++
    array_first cols ++ open_cells (GArray cols) 0 [] (repeat [] n) ++ end_text (GArray cols) n ++ lit "</mtr>".
Proof.
  intros cols n d Hn. unfold gap. cbn [opt repeat]. rewrite prints_cons, print_elem. rewrite row_text by (rewrite repeat_length; exact Hn). rewrite repeat_length. cbn [first_text print_atts flat_map print_att prints].
  unfold attr, quoted, q. same_text.
Qed.

Definition not_equation (g : grouping) : bool := match g with GEquation _ => false | _ => true end.

Lemma newline_step : forall g m n eg r E s S0 p o es d ls, marks g = Some m -> fine None (EvBegin g) -> not_equation g = true -> in_col g n eg ->
  is_at r (ENGroup eg :: E) (s :: S0) p o es ->
  gives (write_newline d ls) r tt (fun r1 => exists eg', in_col g 0 eg' /\ is_at r1 (ENGroup eg' :: E) (st_of plain_look :: S0) None
    (o ++ end_text g n ++ lit "</mtr>" ++ prints (gap g (S n) d) ++ lit "<mtr" ++ env_horizontal_lines ls ++ [62] ++ first_text g) es).
Proof.
  intros g m n eg r E s S0 p o es d ls Hm Hf He Hc A. unfold write_newline. step A. step A. eapply gives_bind, gives_get. pose proof A as (-> & _). rewrite plain_state in A.
  assert (Harr : (exists cols, g = GArray cols) \/ match g with GArray _ => False | _ => True end) by (destruct g; try (right; exact I); left; eauto).
  destruct Harr as [[cols ->]|Harr].
  - cbn [in_col] in Hc. destruct Hc as (i & -> & Hi & Ha & Hk). assert (Hcount : count cols <> O) by lia. destruct (close_is _ _ _ Ha) as [Hi1 Hi2].
    assert (Hcl : array_close_line cols i = Ok (end_text (GArray cols) n ++ lit "</mtr><mtr")).
    { unfold array_close_line. replace (Nat.ltb (length cols) i) with false by (symmetry; apply Nat.ltb_ge; exact Hi1). rewrite Hi2. cbn [end_text]. unfold array_end. rewrite <- app_assoc. reflexivity. }
    destruct (newline_is cols Hcount) as (i0 & Hnl & Ha0).
    assert (Hp0 : array_pos cols 0 = Some i0) by (cbn [array_pos]; rewrite Hnl; reflexivity).
    cbv beta iota. eapply gives_bind with (x := tt), gives_bind. eapply gives_of_res; [exact Hcl|]. eapply gives_more; [apply gives_wr; exact A|]. clear A. intros r2 A. cbn beta in A.
    match type of A with is_at _ _ _ _ ?O _ => set (o1 := O) in * end.
    eapply gives_bind with (x := tt), gives_more with (Q := fun r1 => is_at r1 (ENGroup (EGArray cols i) :: E) (st_of plain_look :: S0) None
      (o ++ end_text (GArray cols) n ++ lit "</mtr>" ++ prints (gap (GArray cols) (S n) d) ++ lit "<mtr") es).
    { destruct d as [d|].
      - step A. eapply gives_bind. eapply gives_of_res; [exact Hnl|]. cbv beta iota. step A.
        destruct (empty_is cols n 0 i0 i (length cols)) as (se & Hse & Ese); [exact Hk|pose proof (count_le cols); lia|exact Hp0|exact Hi|exact Ha0|].
        eapply gives_bind. eapply gives_of_res; [exact Hse|]. cbv beta iota. step A. eapply gives_bind. eapply gives_of_res; [exact Hcl|].
        eapply gives_more; [apply gives_wr; exact A|]. clear A. intros r9 A. cbn beta in A. eapply at_is; [exact A|reflexivity|]. unfold o1. rewrite gap_array by exact Hk. rewrite Ese. same_text.
      - apply gives_ret. eapply at_is; [exact A|reflexivity|]. unfold o1. cbn [gap opt prints flat_map]. same_text. }
    clear A. intros r3 A. cbn beta in A. step A. step A. eapply gives_bind. eapply gives_of_res; [exact Hnl|]. cbv beta iota. step A. eapply gives_more; [eapply gives_set_envs; exact A|]. clear A. intros r9 A. cbn beta in A.
    exists (EGArray cols i0). split.
    + exists i0. split; [reflexivity|]. split; [exact Hp0|]. split; [exact Ha0|lia].
    + eapply at_is; [exact A|reflexivity|]. cbn [first_text]. same_text.
  - assert (Hft : first_text g = lit "<mtd>") by (destruct g; try contradiction; reflexivity). assert (Het : end_text g n = lit "</mtd>") by (destruct g; try contradiction; reflexivity).
    assert (Hgap : forall r9 x, is_at r9 (ENGroup eg :: E) (st_of plain_look :: S0) None (o ++ x) es ->
      gives (match d with Some d => wr (attr (lit "style") (lit "height: " ++ dim_display d) ++ lit ">")%list ;; wr (lit "<mtd class=""menv-nonumber""></mtd></mtr><mtr") | None => ret tt end) r9 tt
       (fun r1 => is_at r1 (ENGroup eg :: E) (st_of plain_look :: S0) None (o ++ x ++ match d with Some d => attr (lit "style") (lit "height: " ++ dim_display d) ++ lit ">" ++ lit "<mtd class=""menv-nonumber""></mtd></mtr><mtr" | None => [] end) es)).
    { clear. intros r9 x A. destruct d as [d|].
      - step A. eapply gives_more; [apply gives_wr; exact A|]. clear A. intros r8 A. cbn beta in A. eapply at_is; [exact A|reflexivity|]. same_text.
      - apply gives_ret. rewrite app_nil_r. exact A. }
    assert (Hfin : forall r9 eg', in_col g 0 eg' -> is_at r9 (ENGroup eg' :: E) (st_of plain_look :: S0) None
      (((((o ++ lit "</mtd></mtr><mtr") ++ match d with Some d => attr (lit "style") (lit "height: " ++ dim_display d) ++ lit ">" ++ lit "<mtd class=""menv-nonumber""></mtd></mtr><mtr" | None => [] end) ++ env_horizontal_lines ls)) ++ lit "><mtd>") es ->
      exists eg', in_col g 0 eg' /\ is_at r9 (ENGroup eg' :: E) (st_of plain_look :: S0) None
       (o ++ end_text g n ++ lit "</mtr>" ++ prints (gap g (S n) d) ++ lit "<mtr" ++ env_horizontal_lines ls ++ [62] ++ first_text g) es).
    { intros r9 eg' H1 H2. exists eg'. split; [exact H1|]. eapply at_is; [exact H2|reflexivity|]. rewrite Hft, Het. destruct d as [d|]; [rewrite gap_plain by exact Harr|cbn [gap opt prints flat_map]]; same_text. }
    assert (Hrun : forall fin, match eg with EGArray _ _ | EGEquation => False | _ => True end ->
      (forall r9, is_at r9 (ENGroup eg :: E) (st_of plain_look :: S0) None
        ((((o ++ lit "</mtd></mtr><mtr") ++ match d with Some d => attr (lit "style") (lit "height: " ++ dim_display d) ++ lit ">" ++ lit "<mtd class=""menv-nonumber""></mtd></mtr><mtr" | None => [] end) ++ env_horizontal_lines ls)) es ->
        gives fin r9 tt (fun r1 => exists eg', in_col g 0 eg' /\ is_at r1 (ENGroup eg' :: E) (st_of plain_look :: S0) None
          (o ++ end_text g n ++ lit "</mtr>" ++ prints (gap g (S n) d) ++ lit "<mtr" ++ env_horizontal_lines ls ++ [62] ++ first_text g) es)) ->
      gives (wr (lit "</mtd></mtr><mtr") ;; (match d with Some d => wr (attr (lit "style") (lit "height: " ++ dim_display d) ++ lit ">")%list ;; wr (lit "<mtd class=""menv-nonumber""></mtd></mtr><mtr") | None => ret tt end) ;;
        wr (env_horizontal_lines ls) ;; fin) r1 tt (fun r1 => exists eg', in_col g 0 eg' /\ is_at r1 (ENGroup eg' :: E) (st_of plain_look :: S0) None
          (o ++ end_text g n ++ lit "</mtr>" ++ prints (gap g (S n) d) ++ lit "<mtr" ++ env_horizontal_lines ls ++ [62] ++ first_text g) es)).
    { intros fin _ Hx. step A. eapply gives_bind, gives_more; [apply Hgap; exact A|]. clear A. intros r9 A. cbn beta in A. rewrite app_assoc in A. step A. apply Hx. exact A. }
    destruct g; cbn [marks in_col not_equation] in *; try discriminate; try contradiction; subst eg; cbv beta iota; (apply Hrun; [exact I|]); clear A Hrun Hgap; intros r9 A; cbv beta iota;
      repeat step A; (eapply gives_more; [apply gives_wr; exact A|]); intros r8 A8; cbn beta in A8; (eapply Hfin; [|exact A8]); reflexivity.
Qed.

(** ** Cells and rows *)

Notation drawn_cell := (draw_cell drawn).

Lemma cell_run : forall cell eg r E S0 o es, Forall good cell -> forallb proper cell = true -> Forall (fine None) (all_events cell) ->
  next_class es = None -> is_at r (ENGroup eg :: E) (st_of plain_look :: S0) None o (all_events cell ++ es) ->
  exists r1 s p, steps r r1 /\ is_at r1 (ENGroup eg :: E) (s :: S0) p (o ++ prints (drawn_cell cell)) es.
Proof.
  intros cell eg r E S0 o es HG Hp Hf Hn A. destruct (good_body cfg cell 0 plain_look None es r (ENGroup eg :: E) S0 o HG I Hp Hf A) as (r1 & H1 & A1). rewrite Hn in A1.
  eexists. eexists. eexists. split; [exact H1|exact A1].
Qed.

Lemma between_cons : forall x y l s seps, between (x :: y :: l) (s :: seps) = x ++ s ++ between (y :: l) seps.
Proof. reflexivity. Qed.
Lemma row_cons : forall x y l, row_events (x :: y :: l) = x ++ EvFlow EFAlignment :: row_events (y :: l).
Proof. reflexivity. Qed.
Lemma row_one : forall x, row_events [x] = x.
Proof. intros. reflexivity. Qed.

Lemma cells_run : forall g m cells cell n eg r E S0 o es, marks g = Some m -> fine None (EvBegin g) -> in_col g n eg -> N.of_nat (n + length cells) <= m ->
  Forall (Forall good) (cell :: cells) -> forallb (forallb proper) (cell :: cells) = true -> Forall (fine None) (row_events (map all_events (cell :: cells))) ->
  next_class es = None -> is_at r (ENGroup eg :: E) (st_of plain_look :: S0) None o (row_events (map all_events (cell :: cells)) ++ es) ->
  exists r1 eg' s p, steps r r1 /\ in_col g (n + length cells) eg' /\
    is_at r1 (ENGroup eg' :: E) (s :: S0) p (o ++ open_cells g n (drawn_cell cell) (map drawn_cell cells)) es.
Proof.
  intros g m. induction cells as [|c1 cells IH]; intros cell n eg r E S0 o es Hm Hg Hc Hl HG Hp Hf Hn A; cbn [map] in *.
  - rewrite row_one in *. apply Forall_inv in HG. cbn [forallb] in Hp. rewrite andb_true_r in Hp.
    destruct (cell_run cell eg r E S0 o es HG Hp Hf Hn A) as (r1 & s & p & H1 & A1). exists r1, eg, s, p. cbn [length open_cells]. rewrite Nat.add_0_r, app_nil_r. auto.
  - rewrite row_cons in *. cbn [forallb] in Hp. apply andb_prop in Hp as [Hp1 Hp2]. apply Forall_inv_tail in HG as HG2. apply Forall_inv in HG. apply Forall_app in Hf as [Hf1 Hf2]. apply Forall_inv_tail in Hf2.
    rewrite <- app_assoc in A. cbn [app] in A.
    destruct (cell_run cell eg r E S0 o (EvFlow EFAlignment :: _) HG Hp1 Hf1 eq_refl A) as (r1 & s & p & H1 & A1).
    destruct (one_round cfg _ _ _ _ _ _ _ _ A1 (fun r0 A0 => align_step g m n eg r0 E s S0 p _ _ Hm Hg ltac:(cbn [length] in Hl; lia) Hc A0)) as (r2 & H2 & eg1 & Hc1 & A2).
    assert (H3 : steps r1 r2). { apply (reaches_steps _ _ _ _ H2). destruct A2 as (-> & _). reflexivity. }
    destruct (IH c1 (S n) eg1 r2 E S0 _ es Hm Hg Hc1 ltac:(cbn [length] in Hl; lia) HG2 Hp2 Hf2 Hn A2) as (r3 & eg2 & s2 & p2 & H4 & Hc2 & A3).
    exists r3, eg2, s2, p2. split; [apply (steps_trans _ _ _ _ H1), (steps_trans _ _ _ _ H3), H4|]. cbn [length]. replace (n + S (length cells))%nat with (S n + length cells)%nat by lia. split; [exact Hc2|].
    eapply at_is; [exact A3|reflexivity|]. cbn [open_cells]. rewrite <- !app_assoc. reflexivity.
Qed.

Definition table_body (rows : list (list (list tree))) (breaks : list (option dimension * list line)) : list event :=
  between (map (fun row => row_events (map all_events row)) rows) (map break_event breaks).

Lemma draw_rows_cons : forall g ls row rows d ls' breaks, draw_rows g ls (row :: rows) ((d, ls') :: breaks) =
  with_lines ls (row_cells g row) ++ gap g (length row) d ++ draw_rows g ls' rows breaks.
Proof. reflexivity. Qed.

Lemma rows_run : forall g m rows breaks row eg r E S0 o es ls, marks g = Some m -> fine None (EvBegin g) -> not_equation g = true -> in_col g 0 eg ->
  Forall (fun row => row_ok m row = true) (row :: rows) -> length rows = length breaks ->
  Forall (Forall (Forall good)) (row :: rows) -> forallb (forallb (forallb proper)) (row :: rows) = true -> Forall (fine None) (table_body (row :: rows) breaks) ->
  is_at r (ENGroup eg :: E) (st_of plain_look :: S0) None o (table_body (row :: rows) breaks ++ EvEnd :: es) ->
  exists r1 eg' n s p x, steps r r1 /\ in_col g n eg' /\ is_at r1 (ENGroup eg' :: E) (s :: S0) p (o ++ x) (EvEnd :: es) /\
    lit "<mtr" ++ env_horizontal_lines ls ++ [62] ++ first_text g ++ x ++ end_text g n ++ lit "</mtr>" = prints (draw_rows g ls (map (map drawn_cell) (row :: rows)) breaks).
Proof.
  intros g m. induction rows as [|row1 rows IH]; intros breaks row eg r E S0 o es ls Hm Hg He Hc Hok Hl HG Hp Hf A; unfold table_body in *; cbn [map] in *.
  - destruct breaks; [|discriminate Hl]. cbn [map between] in *. apply Forall_inv in Hok. apply Forall_inv in HG. cbn [forallb] in Hp. rewrite andb_true_r in Hp.
    destruct row as [|cell cells]; [discriminate Hok|]. cbn [row_ok] in Hok. apply N.leb_le in Hok.
    destruct (cells_run g m cells cell 0 eg r E S0 o (EvEnd :: es) Hm Hg Hc Hok HG Hp Hf eq_refl A) as (r1 & eg' & s & p & H1 & Hc1 & A1).
    exists r1, eg', (length cells), s, p. eexists. split; [exact H1|]. split; [exact Hc1|]. split; [exact A1|].
    cbn [draw_rows map]. rewrite app_nil_r, lines_text, row_text; rewrite map_length; [|exact (in_col_fits _ _ _ Hc1)]. same_text.
  - destruct breaks as [|[d ls'] breaks]; [discriminate Hl|]. cbn [map] in *. rewrite between_cons in *. apply Forall_inv in Hok as Hok1. apply Forall_inv_tail in Hok as Hok2. apply Forall_inv in HG as HG1. apply Forall_inv_tail in HG as HG2.
    cbn [forallb] in Hp. apply andb_prop in Hp as [Hp1 Hp2]. apply Forall_app in Hf as [Hf1 Hf2]. apply Forall_app in Hf2 as [_ Hf2]. cbn [length] in Hl.
    destruct row as [|cell cells]; [discriminate Hok1|]. cbn [row_ok] in Hok1. apply N.leb_le in Hok1. rewrite <- !app_assoc in A. cbn [break_event app fst snd] in A.
    destruct (cells_run g m cells cell 0 eg r E S0 o (EvFlow (EFNewLine d ls') :: _) Hm Hg Hc Hok1 HG1 Hp1 Hf1 eq_refl A) as (r1 & eg1 & s & p & H1 & Hc1 & A1). cbn [Nat.add] in Hc1.
    destruct (one_round cfg _ _ _ _ _ _ _ _ A1 (fun r0 A0 => newline_step g m (length cells) eg1 r0 E s S0 p _ _ d ls' Hm Hg He Hc1 A0)) as (r2 & H2 & eg2 & Hc2 & A2).
    assert (H3 : steps r1 r2). { apply (reaches_steps _ _ _ _ H2). destruct A2 as (-> & _). reflexivity. }
    destruct (IH breaks row1 eg2 r2 E S0 _ es ls' Hm Hg He Hc2 Hok2 ltac:(lia) HG2 Hp2 Hf2 A2) as (r3 & eg3 & n & s3 & p3 & x & H4 & Hc3 & A3 & Hx).
    exists r3, eg3, n, s3, p3. eexists. split; [apply (steps_trans _ _ _ _ H1), (steps_trans _ _ _ _ H3), H4|]. split; [exact Hc3|]. split; [eapply at_is; [exact A3|reflexivity|]; rewrite <- !app_assoc; reflexivity|].
    cbn [map] in *. rewrite draw_rows_cons, !prints_app, lines_text, row_text; rewrite ?map_length; [|exact (in_col_fits _ _ _ Hc1)]. cbn [length]. rewrite map_length. rewrite <- Hx. same_text.
Qed.

(** ** Tables *)

Definition pre_text (g : grouping) : str :=
  match g with GCases lf => lit "<mrow>" ++ (if lf then lit "<mo stretchy=""true"">{</mo>" else []) | _ => [] end ++
  lit "<mtable" ++ print_atts (classes (table_classes g)) ++ [62].
Definition post_text (g : grouping) : str :=
  lit "</mtable>" ++ match g with GCases lf => (if lf then [] else lit "<mo stretchy=""true"">}</mo>") ++ lit "</mrow>" | _ => [] end.

Lemma table_text : forall g lines rows breaks, not_equation g = true ->
  print (draw_table g lines rows breaks) = pre_text g ++ prints (draw_rows g (match lines with Some ls => ls | None => [] end) rows breaks) ++ post_text g.
Proof.
  intros g lines rows breaks He. unfold draw_table. cbv zeta. set (X := draw_rows g _ rows breaks).
  replace (match g with GEquation _ => [Elem (lit "mtr") [] [cell [] (concat (concat rows))]] | _ => X end) with X by (destruct g; try reflexivity; discriminate He).
  set (table := Elem (lit "mtable") (classes (table_classes g)) X).
  assert (H : print table = lit "<mtable" ++ print_atts (classes (table_classes g)) ++ [62] ++ prints X ++ lit "</mtable>"). { unfold table. rewrite print_elem. same_text. }
  unfold pre_text, post_text. destruct g; try (rewrite H; generalize (prints X); intro; same_text). all: match goal with |- context [GCases ?b] => destruct b end.
  all: rewrite print_elem; cbn [prints flat_map]; rewrite H; unfold brace; rewrite print_elem; cbn [print_atts flat_map print_att prints print]; generalize (prints X); intro; same_text.
Qed.

Lemma gives_lines : forall lines r E S0 p o es, match lines with Some _ => True | None => match es with EvFlow (EFStartLines _) :: _ => False | _ => True end end ->
  is_at r E S0 p o (match lines with Some ls => [EvFlow (EFStartLines ls)] | None => [] end ++ es) ->
  gives start_lines r tt (fun r1 => is_at r1 E S0 p (o ++ env_horizontal_lines (match lines with Some ls => ls | None => [] end)) es).
Proof.
  intros [ls|] r E S0 p o es H A; unfold start_lines; cbn [app] in A.
  - stepw gives_first A. cbv beta iota. step A. stepw gives_in_next A. apply gives_ret. exact A.
  - rewrite app_nil_r. destruct es as [|e es].
    + stepw gives_no_first A. apply gives_ret. exact A.
    + stepw gives_first A. destruct e as [| | | | | | |f]; try (apply gives_ret; exact A). destruct f; try contradiction; apply gives_ret; exact A.
Qed.

Lemma gives_cell : forall lines r E S0 p o es, match lines with Some _ => True | None => match es with EvFlow (EFStartLines _) :: _ => False | _ => True end end ->
  is_at r E S0 p o (match lines with Some ls => [EvFlow (EFStartLines ls)] | None => [] end ++ es) ->
  gives open_cell r tt (fun r1 => is_at r1 E S0 p (o ++ env_horizontal_lines (match lines with Some ls => ls | None => [] end) ++ lit "><mtd>") es).
Proof.
  intros lines r E S0 p o es H A. unfold open_cell. eapply gives_bind, gives_more; [apply gives_lines; [exact H|exact A]|]. clear A. intros r1 A. cbn beta in A.
  eapply gives_more; [apply gives_wr; exact A|]. clear A. intros r2 A. cbn beta in A. rewrite <- app_assoc in A. exact A.
Qed.

Lemma open_is_table : forall g m lines r E S0 p o es, marks g = Some m -> fine None (EvBegin g) -> not_equation g = true ->
  match lines with Some _ => True | None => match es with EvFlow (EFStartLines _) :: _ => False | _ => True end end ->
  is_at r E S0 p o (match lines with Some ls => [EvFlow (EFStartLines ls)] | None => [] end ++ es) ->
  exists eg, in_col g 0 eg /\ gives (open_group g) r eg (fun r1 => is_at r1 E S0 p
    (o ++ pre_text g ++ lit "<mtr" ++ env_horizontal_lines (match lines with Some ls => ls | None => [] end) ++ [62] ++ first_text g) es).
Proof.
  intros g m lines r E S0 p o es Hm Hf He Hl A. set (ls := match lines with Some ls => ls | None => [] end) in *.
  assert (Harr : (exists cols, g = GArray cols) \/ match g with GArray _ => False | _ => True end) by (destruct g; try (right; exact I); left; eauto).
  destruct Harr as [[cols ->]|Harr].
  - assert (Hc : count cols <> O). { cbn [fine] in Hf. unfold count. apply existsb_exists in Hf as (c & Hin & Hc). intros H0. apply length_zero_iff_nil in H0. assert (X : In c (filter is_col cols)) by (apply filter_In; auto). rewrite H0 in X. exact X. }
    destruct (newline_is cols Hc) as (i & Hnl & Ha). exists (EGArray cols i). split.
    + exists i. split; [reflexivity|]. split; [cbn [array_pos]; rewrite Hnl; reflexivity|]. split; [exact Ha|lia].
    + cbn [open_group]. step A. eapply gives_bind, gives_more; [apply gives_lines; [exact Hl|exact A]|]. clear A. intros r1 A. cbn beta in A. step A. eapply gives_bind. eapply gives_of_res; [exact Hnl|]. cbv beta iota. step A. apply gives_ret.
      eapply at_is; [exact A|reflexivity|]. unfold pre_text. cbn [first_text table_classes classes joined class print_atts flat_map print_att app]. unfold quoted. fold ls. same_text.
  - assert (Hrun : forall s eg, in_col g 0 eg -> s = pre_text g ++ lit "<mtr" -> gives (wr s ;; open_cell ;; ret eg) r eg (fun r1 => is_at r1 E S0 p
      (o ++ pre_text g ++ lit "<mtr" ++ env_horizontal_lines ls ++ [62] ++ first_text g) es)).
    { intros s eg Hc Hs. step A. eapply gives_bind, gives_more; [apply gives_cell; [exact Hl|exact A]|]. clear A. intros r1 A. cbn beta in A. apply gives_ret.
      eapply at_is; [exact A|reflexivity|]. replace (first_text g) with (lit "<mtd>") by (destruct g; try contradiction; reflexivity). rewrite Hs. fold ls. same_text. }
    destruct g; cbn [marks not_equation] in *; try discriminate; try contradiction; eexists; (split; [reflexivity|]); cbn [open_group]; apply Hrun; try reflexivity.
    all: unfold pre_text; repeat match goal with x : col_align |- _ => destruct x | b : bool |- _ => destruct b end; reflexivity.
Qed.

Lemma close_is_table : forall g n eg r E S0 p o es, in_col g n eg -> not_equation g = true -> is_at r E S0 p o es ->
  gives (close_group eg) r tt (fun r1 => is_at r1 E S0 p (o ++ end_text g n ++ lit "</mtr>" ++ post_text g) es).
Proof.
  intros g n eg r E S0 p o es Hc He A. destruct g; cbn [in_col not_equation] in *; try contradiction; try discriminate He; subst eg || destruct Hc as (i & -> & _ & Ha & _); cbn [close_group]; unfold post_text;
    try (eapply gives_more; [apply gives_wr; exact A|]; intros r9 A9; cbn beta in A9; (eapply at_is; [exact A9|reflexivity|]); cbn [end_text]; same_text).
  - destruct (close_is _ _ _ Ha) as [Hi1 Hi2]. step A. replace (Nat.ltb (length cols) i) with false by (symmetry; apply Nat.ltb_ge; exact Hi1). rewrite Hi2. step A.
    eapply gives_more; [apply gives_wr; exact A|]. clear A. intros r9 A. cbn beta in A. eapply at_is; [exact A|reflexivity|]. cbn [end_text]. unfold array_end. same_text.
  - step A. step A. eapply gives_more; [apply gives_wr; exact A|]. clear A. intros r9 A. cbn beta in A. eapply at_is; [exact A|reflexivity|]. cbn [end_text]. destruct left; same_text.
Qed.

(** An equation ignores line breaks. *)
Lemma equation_run : forall rows breaks row r E S0 o es,
  Forall (fun row => row_ok 0 row = true) (row :: rows) -> length rows = length breaks ->
  Forall (Forall (Forall good)) (row :: rows) -> forallb (forallb (forallb proper)) (row :: rows) = true -> Forall (fine None) (table_body (row :: rows) breaks) ->
  is_at r (ENGroup EGEquation :: E) (st_of plain_look :: S0) None o (table_body (row :: rows) breaks ++ EvEnd :: es) ->
  exists r1 s p, steps r r1 /\ is_at r1 (ENGroup EGEquation :: E) (s :: S0) p (o ++ prints (concat (concat (map (map drawn_cell) (row :: rows))))) (EvEnd :: es).
Proof.
  induction rows as [|row1 rows IH]; intros breaks row r E S0 o es Hok Hl HG Hp Hf A; unfold table_body in *; cbn [map] in *.
  all: apply Forall_inv in Hok as Hok1; apply Forall_inv in HG as HG1; cbn [forallb] in Hp; apply andb_prop in Hp as [Hp1 Hp2];
    destruct row as [|cell [|c1 cells]]; [discriminate Hok1| |discriminate Hok1]; apply Forall_inv in HG1; cbn [forallb] in Hp1; rewrite andb_true_r in Hp1; cbn [map] in *; rewrite row_one in *.
  - destruct breaks; [|discriminate Hl]. cbn [map between] in *.
    destruct (cell_run cell EGEquation r E S0 o (EvEnd :: es) HG1 Hp1 Hf eq_refl A) as (r1 & s & p & H1 & A1). exists r1, s, p. split; [exact H1|]. cbn [concat app]. rewrite !app_nil_r. exact A1.
  - destruct breaks as [|[d ls'] breaks]; [discriminate Hl|]. cbn [map] in *. rewrite between_cons in *. apply Forall_inv_tail in Hok as Hok2. apply Forall_inv_tail in HG as HG2.
    apply Forall_app in Hf as [Hf1 Hf2]. apply Forall_app in Hf2 as [_ Hf2]. cbn [length] in Hl. rewrite <- !app_assoc in A. cbn [break_event app fst snd] in A.
    destruct (cell_run cell EGEquation r E S0 o (EvFlow (EFNewLine d ls') :: _) HG1 Hp1 Hf1 eq_refl A) as (r1 & s & p & H1 & A1).
    match type of A1 with is_at _ _ _ _ _ (_ :: ?l) => set (rest := l) in * end.
    destruct (one_round cfg _ _ _ _ _ _ _ (fun r1 => is_at r1 (ENGroup EGEquation :: E) (st_of plain_look :: S0) None (o ++ prints (drawn_cell cell)) rest) A1) as (r2 & H2 & A2).
    { clear A A1. intros r0 A. cbn [write_event]. unfold write_newline. step A. step A. eapply gives_bind, gives_get. pose proof A as (-> & _). apply gives_ret. exact A. }
    assert (H3 : steps r1 r2). { apply (reaches_steps _ _ _ _ H2). destruct A2 as (-> & _). reflexivity. }
    destruct (IH breaks row1 r2 E S0 _ es Hok2 ltac:(lia) HG2 Hp2 Hf2 A2) as (r3 & s3 & p3 & H4 & A3).
    exists r3, s3, p3. split; [apply (steps_trans _ _ _ _ H1), (steps_trans _ _ _ _ H3), H4|]. eapply at_is; [exact A3|reflexivity|].
    cbn [concat app]. rewrite prints_app, <- app_assoc. reflexivity.
Qed.

Lemma marks_env : forall g m, marks g = Some m -> is_math_env g = true.
Proof. intros [] m H; try discriminate H; reflexivity. Qed.

Lemma first_not_lines : forall rows breaks es, match rows with (cell :: _) :: _ => starts_lost cell = false | _ => False end ->
  match table_body rows breaks ++ EvEnd :: es with EvFlow (EFStartLines _) :: _ => False | _ => True end.
Proof.
  intros [|[|cell cells] rows] breaks es H; try contradiction. unfold table_body. cbn [map].
  assert (Hr : forall rest, match rest with EvFlow (EFStartLines _) :: _ => False | _ => True end ->
    match row_events (all_events cell :: map all_events cells) ++ rest with EvFlow (EFStartLines _) :: _ => False | _ => True end).
  { intros rest Hx. destruct cell as [|t cell].
    - destruct cells as [|c1 cells]; [exact Hx|]. cbn [map]. rewrite row_cons. exact I.
    - assert (Ht : exists e l, all_events (t :: cell) = e :: l /\ match e with EvFlow (EFStartLines _) => False | _ => True end). { destruct t; try discriminate H; eexists; eexists; (split; [reflexivity|exact I]). }
      destruct Ht as (e & l & He & Hm). rewrite He. destruct cells as [|c1 cells]; cbn [map]; [rewrite row_one|rewrite row_cons]; cbn [app]; destruct e as [| | | | | | |[]]; exact Hm. }
  destruct breaks as [|b breaks]; [|destruct rows as [|r1 rows]].
  - cbn [map between]. apply Hr. exact I.
  - cbn [map between]. rewrite <- app_assoc. apply Hr. destruct b. exact I.
  - cbn [map]. rewrite between_cons, <- app_assoc. apply Hr. destruct b. exact I.
Qed.

Lemma good_table : forall g lines rows breaks, Forall (Forall (Forall good)) rows -> good (TTable g lines rows breaks).
Proof.
  intros g lines rows breaks HG p k prev es r E S0 o Hp Hr Hf A. cbn [proper] in Hr. apply andb_prop in Hr as [Ht Hr]. unfold table_ok in Ht. destruct (marks g) as [m|] eqn:Hm; [|discriminate].
  apply andb_prop in Ht as [Ht Hlost]. apply andb_prop in Ht as [Hok Hl]. apply Nat.eqb_eq in Hl. rewrite forallb_forall in Hok.
  cbn [events] in A, Hf. fold (all_events) in A, Hf.
  change (between (map (fun row => row_events (map (fun cell => flat_map events cell) row)) rows) (map break_event breaks)) with (table_body rows breaks) in A, Hf.
  apply Forall_inv in Hf as Hg. apply Forall_inv_tail in Hf. apply Forall_app in Hf as [_ Hf]. apply Forall_app in Hf as [Hf _].
  cbn [app] in A. rewrite <- !app_assoc in A. cbn [app] in A.
  destruct rows as [|row rows]; [discriminate Hl|]. cbn [length] in Hl. injection Hl as Hl.
  assert (Hok' : Forall (fun row => row_ok m row = true) (row :: rows)) by (apply Forall_forall; intros x Hx; apply Hok; exact Hx).
  assert (Hfirst : match lines with Some _ => True | None => match table_body (row :: rows) breaks ++ EvEnd :: es with EvFlow (EFStartLines _) :: _ => False | _ => True end end).
  { destruct lines; [exact I|]. apply first_not_lines. apply Forall_inv in Hok'. destruct row as [|cell cells]; [discriminate Hok'|]. apply negb_true_iff in Hlost. exact Hlost. }
  change (SpecDraw.draw (block_of cfg) (upright_of cfg) glyph_of (TTable g lines (row :: rows) breaks) p k prev (next_class es)) with
    ([draw_table g lines (map (map drawn_cell) (row :: rows)) breaks], k, Some AtInner).
  cbv zeta. unfold look_of, xmls. cbn [fst snd after_env].
  destruct (not_equation g) eqn:He.
  - destruct (one_round cfg _ _ _ _ _ _ _ (fun r1 => exists eg, in_col g 0 eg /\ is_at r1 (ENGroup eg :: E) (st_of plain_look :: st_of k :: S0) None
      (o ++ pre_text g ++ lit "<mtr" ++ env_horizontal_lines (match lines with Some ls => ls | None => [] end) ++ [62] ++ first_text g) (table_body (row :: rows) breaks ++ EvEnd :: es)) A) as (r1 & H1 & eg & Hc & A1).
    + clear A. intros r0 A. cbn [write_event]. unfold begin_group. step A. rewrite (marks_env _ _ Hm). step A. rewrite plain_state in A.
      destruct (open_is_table g m lines _ E (st_of plain_look :: st_of k :: S0) None o (table_body (row :: rows) breaks ++ EvEnd :: es) Hm Hg He Hfirst A) as (eg & Hc & Hgv).
      eapply gives_bind, gives_more; [exact Hgv|]. clear A Hgv. intros r3 A. cbn beta in A. eapply gives_more; [apply gives_push_env; exact A|]. intros r4 A4. cbn beta in A4. eauto.
    + assert (H2 : steps r r1). { apply (reaches_steps _ _ _ _ H1). destruct A1 as (-> & _). reflexivity. }
      destruct (rows_run g m rows breaks row eg r1 E (st_of k :: S0) _ es (match lines with Some ls => ls | None => [] end) Hm Hg He Hc Hok' Hl HG Hr Hf A1) as (r3 & eg3 & n & s3 & p3 & x & H3 & Hc3 & A3 & Hx).
      destruct (end_run cfg _ _ _ _ _ _ _ _ (Some AtInner) (end_text g n ++ lit "</mtr>" ++ post_text g) A3) as (r4 & H4 & A4).
      { intros r0 A0. apply (close_is_table g n); assumption. }
      exists r4. split; [apply (steps_reaches _ _ _ _ H2), (steps_reaches _ _ _ _ H3), H4|]. eapply at_is; [exact A4|reflexivity|].
      cbn [prints flat_map]. rewrite app_nil_r, table_text by exact He. fold prints. rewrite <- Hx. same_text.
  - destruct g; try discriminate He. injection Hm as <-.
    destruct (one_round cfg _ _ _ _ _ _ _ (fun r1 => is_at r1 (ENGroup EGEquation :: E) (st_of plain_look :: st_of k :: S0) None
      (o ++ lit "<mtable" ++ print_atts (classes (numbered eq_numbers)) ++ lit "><mtr><mtd>") (match lines with Some ls => [EvFlow (EFStartLines ls)] | None => [] end ++ table_body (row :: rows) breaks ++ EvEnd :: es)) A) as (r1 & H1 & A1).
    + clear A. intros r0 A. cbn [write_event]. unfold begin_group. step A. cbn [is_math_env]. step A. rewrite plain_state in A. cbn [open_group]. eapply gives_bind with (x := EGEquation). step A. apply gives_ret.
      eapply gives_more; [apply gives_push_env; exact A|]. intros r4 A4. cbn beta in A4. eapply at_is; [exact A4|reflexivity|]. destruct eq_numbers; reflexivity.
    + assert (H2 : steps r r1). { apply (reaches_steps _ _ _ _ H1). destruct A1 as (-> & _). reflexivity. }
      assert (H2' : exists r2, steps r r2 /\ is_at r2 (ENGroup EGEquation :: E) (st_of plain_look :: st_of k :: S0) None
        (o ++ lit "<mtable" ++ print_atts (classes (numbered eq_numbers)) ++ lit "><mtr><mtd>") (table_body (row :: rows) breaks ++ EvEnd :: es)).
      { destruct lines as [ls|]; [|exists r1; split; [exact H2|exact A1]]. cbn [app] in A1.
        destruct (one_round cfg _ _ _ _ _ _ _ _ A1 (fun r0 A0 => gives_recover r0 _ _ _ _ _ A0)) as (r2 & H3 & A2). exists r2. split; [|exact A2].
        apply (steps_trans _ _ _ _ H2). apply (reaches_steps _ _ _ _ H3). destruct A2 as (-> & _). reflexivity. }
      clear r1 H1 H2 A1. destruct H2' as (r1 & H2 & A1).
      destruct (equation_run rows breaks row r1 E (st_of k :: S0) _ es Hok' Hl HG Hr Hf A1) as (r3 & s3 & p3 & H3 & A3).
      destruct (end_run cfg _ _ _ _ _ _ _ _ (Some AtInner) (lit "</mtd></mtr></mtable>") A3) as (r4 & H4 & A4).
      { intros r0 A0. cbn [close_group]. apply gives_wr. exact A0. }
      exists r4. split; [apply (steps_reaches _ _ _ _ H2), (steps_reaches _ _ _ _ H3), H4|]. eapply at_is; [exact A4|reflexivity|].
      unfold draw_table. cbv zeta. set (X := concat (concat _)). rewrite prints_cons, print_elem, prints_cons, print_elem, prints_cons, cell_print. cbn [prints flat_map print_atts cell_str table_classes]. fold (prints X). generalize (prints X). intro.
      fold (print_atts (classes (numbered eq_numbers))). same_text.
Qed.

End Config.
