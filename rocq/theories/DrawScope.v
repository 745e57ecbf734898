(** * DrawScope: texts, rows of arrays, and the extent of groups in a drawing. *)

From Coq Require Import List Arith NArith ZArith Bool Lia.
From Verif Require Import Base Float32 Event Tables Prim Spans SpecEvent SpecStream SpecDraw DrawTrees RenderDraw DrawFacts.
Import ListNotations.
Open Scope N_scope.
Open Scope list_scope.

(** ** Texts *)

(** [decodes s t]: [s] has no markup, and reads as [t]. *)
Inductive decodes : str -> str -> Prop :=
| decodes_nil : decodes [] []
| decodes_char : forall c s t, c <> 38 -> c <> 60 -> c <> 62 -> decodes s t -> decodes (c :: s) (c :: t)
| decodes_amp : forall s t, decodes s t -> decodes (lit "&amp;" ++ s) (38 :: t)
| decodes_lt : forall s t, decodes s t -> decodes (lit "&lt;" ++ s) (60 :: t)
| decodes_gt : forall s t, decodes s t -> decodes (lit "&gt;" ++ s) (62 :: t)
| decodes_nbsp : forall s t, decodes s t -> decodes (lit "&nbsp;" ++ s) (160 :: t).

Lemma decodes_app : forall a b c d, decodes a b -> decodes c d -> decodes (a ++ c) (b ++ d).
Proof.
  intros a b c d H Hc. induction H; cbn [app]; rewrite <- ?app_assoc; [exact Hc|constructor; assumption| | | |].
  - apply (decodes_amp (s ++ c)). exact IHdecodes.
  - apply (decodes_lt (s ++ c)). exact IHdecodes.
  - apply (decodes_gt (s ++ c)). exact IHdecodes.
  - apply (decodes_nbsp (s ++ c)). exact IHdecodes.
Qed.
Lemma entity_decodes : forall s, decodes (flat_map entity s) s.
Proof.
  induction s as [|c s IH]; [constructor|]. cbn [flat_map]. unfold entity. destruct (c =? 38) eqn:E1; [apply N.eqb_eq in E1 as ->; apply decodes_amp, IH|]. destruct (c =? 60) eqn:E2; [apply N.eqb_eq in E2 as ->; apply decodes_lt, IH|].
  destruct (c =? 62) eqn:E3; [apply N.eqb_eq in E3 as ->; apply decodes_gt, IH|]. cbn [app]. apply N.eqb_neq in E1, E2, E3. constructor; assumption.
Qed.
Lemma decodes_once : forall s t, decodes s t -> forall u, decodes s u -> t = u.
Proof.
  intros s t H. induction H as [|c s t H1 H2 H3 H IH|s t H IH|s t H IH|s t H IH|s t H IH]; intros u Hu; inversion Hu; subst; try congruence; f_equal; apply IH; assumption.
Qed.

(** What a reader sees of a text: blanks at its ends are one no-break space each. *)
Definition seen (glyph : font -> char -> char) (f : option font) (s : str) : str :=
  (if starts_blank s then [160] else []) ++ match f with Some f => map (glyph f) (trim s) | None => trim s end ++ (if starts_blank (rev s) then [160] else []).
Lemma text_decodes : forall glyph k s, decodes (text_of glyph k s) (seen glyph (k_font k) s).
Proof.
  intros glyph k s. unfold text_of, seen, in_font. apply decodes_app; [|apply decodes_app; [apply entity_decodes|]].
  - destruct (starts_blank s); [apply (decodes_nbsp [] []); constructor|constructor].
  - destruct (starts_blank (rev s)); [apply (decodes_nbsp [] []); constructor|constructor].
Qed.
Lemma seen_plain : forall glyph s, starts_blank s = false -> starts_blank (rev s) = false -> seen glyph None s = s.
Proof.
  intros glyph s H1 H2. unfold seen. rewrite H1, H2, app_nil_r. cbn [app]. unfold trim.
  assert (K : forall s, starts_blank s = false -> trim_start s = s) by (intros [|c s']; [reflexivity|]; cbn; intros ->; reflexivity).
  rewrite (K s H1), (K _ H2). apply rev_involutive.
Qed.

(** ** Rows of arrays *)

(** [arranged contents n cells]: a cell for each of the contents, in their order,
    and among them [n] cells that are borders. *)
Inductive arranged : list (list xml) -> nat -> list xml -> Prop :=
| arranged_nil : arranged [] 0 []
| arranged_border : forall side l cs n xs, arranged cs n xs -> arranged cs (S n) (border side l :: xs)
| arranged_cell : forall cls c cs n xs, ~ In (lit "menv-border-only") cls -> arranged cs n xs -> arranged (c :: cs) n (cell cls c :: xs).

(** The lines of a specification beyond those the cells of the first [k] columns carry. *)
Fixpoint lines_of (cols : list array_col) : nat * list array_col :=
  match cols with ACSep _ :: cols' => let '(n, r) := lines_of cols' in (S n, r) | _ => (O, cols) end.
Fixpoint extra (fuel : nat) (k : nat) (cols : list array_col) : nat :=
  match fuel with
  | O => O
  | S fuel' =>
      let '(n, r) := lines_of cols in
      (n - 1 + match k, r with S k', ACColumn _ :: r' => extra fuel' k' r' | _, _ => O end)%nat
  end.

Lemma arranged_borders : forall side ls cs n xs, arranged cs n xs -> arranged cs (length ls + n) (map (border side) ls ++ xs).
Proof. induction ls; intros; [assumption|]. cbn. constructor. auto. Qed.
Lemma not_border : forall (l : list line) a (lead : list str), ~ In (lit "menv-border-only") lead ->
  ~ In (lit "menv-border-only") (lead ++ align_name a ++ match l with x :: _ => [lit "menv-right-" ++ line_name x] | [] => [] end).
Proof.
  intros l a lead Hl H. apply in_app_or in H as [H|H]; [exact (Hl H)|]. apply in_app_or in H as [H|H].
  - destruct a; cbn in H; repeat destruct H as [H|H]; try contradiction; vm_compute in H; discriminate.
  - destruct l as [|[] l]; cbn in H; repeat destruct H as [H|H]; try contradiction; vm_compute in H; discriminate.
Qed.
Fixpoint sum (l : list nat) : nat := match l with [] => O | x :: l' => (x + sum l')%nat end.
Lemma arranged_cells : forall cs lead contents, (length contents <= length cs)%nat -> ~ In (lit "menv-border-only") lead ->
  arranged contents (sum (map (fun c => length (snd c) - 1)%nat (firstn (length contents) cs))) (array_cells lead cs contents).
Proof.
  induction cs as [|[a ls] cs IH]; intros lead contents Hl Hn; (destruct contents as [|x contents]; [apply arranged_nil|]); [cbn in Hl; lia|].
  cbn [length firstn map sum snd array_cells]. apply arranged_cell; [apply not_border; exact Hn|].
  replace (length ls - 1)%nat with (length (tl ls)) by (destruct ls; cbn; lia). apply arranged_borders. apply IH; [cbn in Hl; lia|auto].
Qed.
Lemma lines_columns : forall cols, fst (lines_of cols) = length (fst (columns cols)) /\
  match snd (lines_of cols) with
  | [] => snd (columns cols) = []
  | ACSep _ :: _ => False
  | ACColumn a :: r => exists c cs, columns r = (c, cs) /\ snd (columns cols) = (a, c) :: cs
  end.
Proof.
  intros cols. induction cols as [|x cols IH]; [split; reflexivity|]. destruct IH as [IH1 IH2], x as [a|l].
  - cbn. destruct (columns cols) as [ls cs]. cbn. split; [reflexivity|]. eauto.
  - cbn [lines_of columns]. destruct (lines_of cols) as [n r], (columns cols) as [ls cs]. cbn in *. split; [congruence|]. exact IH2.
Qed.
Lemma lines_shorter : forall cols, (length (snd (lines_of cols)) <= length cols)%nat.
Proof. induction cols as [|[a|l] cols IH]; cbn; [lia|lia|]. destruct (lines_of cols). cbn in *. lia. Qed.
Lemma extra_columns : forall fuel cols k, (length cols < fuel)%nat ->
  extra fuel k cols = (length (fst (columns cols)) - 1 + sum (map (fun c => length (snd c) - 1)%nat (firstn k (snd (columns cols)))))%nat.
Proof.
  induction fuel as [|fuel IH]; intros cols k Hl; [lia|]. cbn [extra]. pose proof (lines_columns cols) as [H1 H2]. pose proof (lines_shorter cols) as H3. destruct (lines_of cols) as [n r]. cbn [fst snd] in *. rewrite <- H1. f_equal.
  destruct k as [|k]; [reflexivity|]. destruct r as [|[a|l] r]; [rewrite H2; reflexivity| |contradiction].
  destruct H2 as (c & cs & E & ->). cbn [firstn map sum snd length] in *. rewrite IH by lia. rewrite E. reflexivity.
Qed.
Lemma array_arranged : forall cols contents, (length contents <= length (filter is_col cols))%nat ->
  arranged contents (extra (S (length cols)) (length contents) cols) (array_row cols contents).
Proof.
  intros cols contents Hl. rewrite extra_columns by lia. rewrite <- columns_length in Hl. unfold array_row. destruct (columns cols) as [ls cs]. cbn [fst snd] in *.
  replace (length ls - 1)%nat with (length (removelast ls)). 2:{ clear. induction ls as [|x [|y ls] IH]; [reflexivity|reflexivity|]. cbn [removelast length] in *. lia. }
  apply arranged_borders. apply arranged_cells; [exact Hl|]. destruct ls as [|x ls]; [intros []|]. intros [H|[]]. destruct (last (x :: ls) LSolid); vm_compute in H; discriminate.
Qed.

(** ** Groups in their places *)

Inductive ctx :=
| CHere
| CGroup (cs : list state_change) (l : list tree) (C : ctx) (r : list tree)
| CFenced (a b : option char) (cs : list state_change) (l : list tree) (C : ctx) (r : list tree)
| CTable (g : grouping) (lines : option (list line)) (above : list (list (list tree))) (before : list (list tree)) (l : list tree) (C : ctx) (r : list tree)
    (behind : list (list tree)) (below : list (list (list tree))) (breaks : list (option dimension * list line))
| CVisual (v : visual) (l : list tree) (C : ctx) (r : list tree)
| CScript (ty : script_type) (pos : script_pos) (l : list tree) (C : ctx) (r : list tree).
Fixpoint plug (C : ctx) (t : tree) : tree :=
  match C with
  | CHere => t
  | CGroup cs l C r => TGroup cs (l ++ plug C t :: r)
  | CFenced a b cs l C r => TFenced a b cs (l ++ plug C t :: r)
  | CTable g lines above before l C r behind below breaks =>
      TTable g lines (above ++ (before ++ (l ++ plug C t :: r) :: behind) :: below) breaks
  | CVisual v l C r => TVisual v (l ++ plug C t :: r)
  | CScript ty pos l C r => TScript ty pos (l ++ plug C t :: r)
  end.

(** A group, or a group between fences. *)
Definition is_enclosed (fences : bool) (t : tree) : bool :=
  match t with TGroup _ _ => negb fences | TFenced _ _ _ _ => fences | _ => false end.

Section Draw.
Variable block : bool.
Variable upright : char -> bool.
Variable glyph : font -> char -> char.
Variable fences : bool.
Notation draw := (draw block upright glyph).
Notation enclosed := (is_enclosed fences).

(** What is written around the element of the group, and what holds after it, is
    the same for all groups. *)
Definition hole {A} (f : tree -> A) (out : A -> str) (rest : A -> look * option atom_class) : Prop :=
  exists pre post p k prev after s, forall t, enclosed t = true ->
    out (f t) = pre ++ prints (xmls (draw t p k prev after)) ++ post /\ rest (f t) = s.
Definition written (d : drawing) : str := prints (xmls d).
Definition rest (d : drawing) : look * option atom_class := (snd (fst d), snd d).

Lemma plug_first : forall C t t' after, enclosed t = true -> enclosed t' = true -> first (plug C t) after = first (plug C t') after.
Proof.
  assert (L : forall l a b r after, (forall z, first a z = first b z) -> fold_right first after (l ++ a :: r) = fold_right first after (l ++ b :: r)).
  { intros l a b r after H. rewrite !fold_right_app. cbn [fold_right]. rewrite H. reflexivity. }
  induction C; intros t t' after H H'; cbn [plug first].
  - destruct t, t'; try discriminate; reflexivity.
  - reflexivity.
  - reflexivity.
  - reflexivity.
  - destruct v; try reflexivity. apply L. intros z. apply IHC; assumption.
  - apply L. intros z. apply IHC; assumption.
Qed.
Lemma plug_not : forall C t, enclosed t = true -> is_function (plug C t) = false.
Proof. intros [] t H; try reflexivity. destruct t; try discriminate; reflexivity. Qed.

Lemma draw_all_app : forall at_ l i r k prev after,
  draw_all draw at_ i (l ++ r) k prev after =
  let '(x, k1, p1) := draw_all draw at_ i l k prev (first_of r after) in
  let '(y, k2, p2) := draw_all draw at_ (i + length l) r k1 p1 after in (x ++ y, k2, p2).
Proof.
  intros at_. induction l as [|t l IH]; intros i r k prev after.
  - cbn [app length]. rewrite Nat.add_0_r. cbn [draw_all]. destruct (draw_all draw at_ i r k prev after) as [[y k2] p2]. reflexivity.
  - cbn [app draw_all]. fold (draw_all draw at_). replace (first_of (l ++ r) after) with (first_of l (first_of r after)) by (unfold first_of; rewrite fold_right_app; reflexivity).
    destruct (draw t (at_ i) k prev (first_of l (first_of r after))) as [[x k1] p1]. rewrite IH. cbn [length]. rewrite Nat.add_succ_r.
    change (S i + length l)%nat with (S (i + length l)). destruct (draw_all draw at_ (S i) l k1 p1 (first_of r after)) as [[x2 k2] p2]. destruct (draw_all draw at_ (S (i + length l)) r k2 p2 after) as [[x3 k3] p3]. rewrite app_assoc. reflexivity.
Qed.

(** The list around the hole. *)
Lemma list_hole : forall C at_ l r i k prev after,
  (forall p k prev after, hole (fun t => draw (plug C t) p k prev after) written rest) ->
  hole (fun t => draw_all draw at_ i (l ++ plug C t :: r) k prev after) written rest.
Proof.
  intros C at_ l r i k prev after HC.
  pose (g0 := if fences then TFenced None None [] [] else TGroup [] []). assert (H0 : enclosed g0 = true) by (unfold g0, is_enclosed; destruct fences; reflexivity).
  set (a0 := first (plug C g0) (first_of r after)).
  destruct (draw_all draw at_ i l k prev a0) as [[x k1] p1] eqn:E1.
  destruct (HC (at_ (i + length l)%nat) k1 p1 (first_of r after)) as (pre & post & p' & k' & prev' & after' & [k2 p2] & H).
  destruct (draw_all draw at_ (S (i + length l)) r k2 p2 after) as [[y k3] p3] eqn:E3.
  exists (prints x ++ pre), (post ++ prints y), p', k', prev', after', (k3, p3). intros t Ht. destruct (H t Ht) as [Hw Hr].
  rewrite draw_all_app. cbn [first_of fold_right]. fold (first_of r after). rewrite (plug_first C t g0 (first_of r after) Ht H0). fold a0. rewrite E1.
  cbn [draw_all]. fold (draw_all draw at_). unfold rest in Hr. unfold written in Hw. destruct (draw (plug C t) (at_ (i + length l)%nat) k1 p1 (first_of r after)) as [[z kz] pz]. cbn [fst snd] in Hr. injection Hr as -> ->. rewrite E3.
  unfold written, rest, xmls in *. cbn [fst snd] in *. split; [|reflexivity]. rewrite !prints_app, Hw, <- !app_assoc. reflexivity.
Qed.

(** Cells and rows around the hole. *)
Definition linear (f : list xml -> list xml) : Prop := exists pre post, forall x, prints (f x) = pre ++ prints x ++ post.
Lemma linear_app : forall f a b, linear f -> linear (fun x => a ++ f x ++ b).
Proof. intros f a b (pre & post & H). exists (prints a ++ pre), (post ++ prints b). intros x. rewrite !prints_app, H, <- !app_assoc. reflexivity. Qed.
Lemma linear_elem : forall f n a, linear f -> linear (fun x => [Elem n a (f x)]).
Proof. intros f n a (pre & post & H). exists ([60] ++ n ++ print_atts a ++ [62] ++ pre), (post ++ lit "</" ++ n ++ [62]). intros x. rewrite prints_cons, print_elem, H. cbn [prints flat_map]. rewrite app_nil_r, <- !app_assoc. reflexivity. Qed.
Lemma linear_ext : forall f h, (forall x, f x = h x) -> linear f -> linear h.
Proof. intros f h E (pre & post & H). exists pre, post. intros x. rewrite <- E. apply H. Qed.
Lemma linear_id : linear (fun x => x).
Proof. exists [], []. intros x. rewrite app_nil_r. reflexivity. Qed.

Lemma array_cells_linear : forall before cs lead behind, (length before < length cs)%nat -> linear (fun x => array_cells lead cs (before ++ x :: behind)).
Proof.
  induction before as [|b before IH]; intros cs lead behind Hl; destruct cs as [|[a ls] cs]; try (cbn in Hl; lia); cbn [app array_cells].
  - apply (linear_app (fun x => [cell (lead ++ align_name a ++ match ls with [] => [] | l :: _ => [lit "menv-right-" ++ line_name l] end) x]) [] (map (border (lit "right")) (tl ls) ++ array_cells [] cs behind)).
    apply linear_elem, linear_id.
  - match goal with |- linear (fun x => ?c :: ?m ++ array_cells [] cs _) => eapply (linear_ext (fun x => (c :: m) ++ array_cells [] cs (before ++ x :: behind) ++ [])); [intros x; rewrite app_nil_r; reflexivity|] end.
    apply (linear_app (fun x => array_cells [] cs (before ++ x :: behind))). apply IH. cbn in Hl. lia.
Qed.
Lemma row_linear : forall g before behind, fits g (length before + S (length behind)) -> linear (fun x => row_cells g (before ++ x :: behind)).
Proof.
  intros g before behind Hf.
  assert (Hplain : linear (fun x => map (cell []) (before ++ x :: behind))).
  { eapply (linear_ext (fun x => map (cell []) before ++ [cell [] x] ++ map (cell []) behind)); [intros x; rewrite map_app; reflexivity|]. apply (linear_app (fun x => [cell [] x])). apply linear_elem, linear_id. }
  destruct g; try exact Hplain. cbn [row_cells fits] in *. unfold array_row. rewrite <- columns_length in Hf. destruct (columns cols) as [ls cs]. cbn [snd] in Hf.
  match goal with |- linear (fun x => ?m ++ array_cells ?ld cs _) => eapply (linear_ext (fun x => m ++ array_cells ld cs (before ++ x :: behind) ++ [])); [intros x; rewrite app_nil_r; reflexivity|]; apply (linear_app (fun x => array_cells ld cs (before ++ x :: behind))) end.
  apply array_cells_linear. lia.
Qed.
Lemma rows_linear : forall g above ls before behind below breaks, length (above ++ before :: below) = S (length breaks) -> fits g (length before + S (length behind)) ->
  linear (fun x => draw_rows g ls (above ++ (before ++ x :: behind) :: below) breaks).
Proof.
  intros g. induction above as [|row above IH]; intros ls before behind below breaks Hl Hf; cbn [app draw_rows] in *.
  - eapply (linear_ext (fun x => map (fun l => Elem (lit "mtr") (line_class l) [unnumbered]) (removelast ls) ++ [Elem (lit "mtr") (match ls with [] => [] | _ => line_class (last ls LSolid) end) (row_cells g (before ++ x :: behind))] ++
      match breaks with (d, ls') :: breaks' => gap g (length before + S (length behind)) d ++ draw_rows g ls' below breaks' | [] => [] end)).
    { intros x. unfold with_lines. rewrite <- app_assoc. rewrite app_length. cbn [length]. reflexivity. }
    apply (linear_app (fun x => [Elem (lit "mtr") (match ls with [] => [] | _ => line_class (last ls LSolid) end) (row_cells g (before ++ x :: behind))])). apply linear_elem, row_linear, Hf.
  - destruct breaks as [|[d ls'] breaks]; [cbn in Hl; rewrite app_length in Hl; cbn in Hl; lia|]. cbn [length] in Hl.
    eapply (linear_ext (fun x => (with_lines ls (row_cells g row) ++ gap g (length row) d) ++ draw_rows g ls' (above ++ (before ++ x :: behind) :: below) breaks ++ [])); [intros x; rewrite app_nil_r, <- app_assoc; reflexivity|].
    apply (linear_app (fun x => draw_rows g ls' (above ++ (before ++ x :: behind) :: below) breaks)). apply IH; [lia|exact Hf].
Qed.
Lemma table_linear : forall g lines above before behind below breaks, length (above ++ before :: below) = S (length breaks) -> fits g (length before + S (length behind)) ->
  linear (fun x => [draw_table g lines (above ++ (before ++ x :: behind) :: below) breaks]).
Proof.
  intros g lines above before behind below breaks Hl Hf.
  assert (B : linear (fun x => table_body g lines (above ++ (before ++ x :: behind) :: below) breaks)).
  { pose proof (rows_linear g above (match lines with Some ls => ls | None => [] end) before behind below breaks Hl Hf) as R. destruct g; try exact R. cbn [table_body].
    apply (linear_elem (fun x => [cell [] (concat (concat (above ++ (before ++ x :: behind) :: below)))])). apply linear_elem.
    eapply (linear_ext (fun x => concat (concat above ++ before) ++ x ++ concat (behind ++ concat below))); [|apply (linear_app (fun x => x)), linear_id].
    intros x. repeat (rewrite concat_app; cbn [concat]). rewrite <- !app_assoc. reflexivity. }
  assert (T : linear (fun x => [Elem (lit "mtable") (classes (table_classes g)) (table_body g lines (above ++ (before ++ x :: behind) :: below) breaks)])) by (apply linear_elem; exact B).
  unfold draw_table. destruct g as [| | | | lft | | | | | | | | | |]; try exact T. destruct lft; apply linear_elem.
  - apply (linear_app _ [brace 123] []) in T. exact T.
  - apply (linear_app _ [] [brace 125]) in T. exact T.
Qed.

Lemma linear_hole : forall f (d : tree -> drawing) (h : tree -> drawing) s, linear f -> hole d written rest -> (forall t, enclosed t = true -> xmls (h t) = f (xmls (d t)) /\ rest (h t) = s (rest (d t))) -> hole h written rest.
Proof.
  intros f d h s (pre & post & Hf) (pre' & post' & p & k & prev & after & s' & H) E. exists (pre ++ pre'), (post' ++ post), p, k, prev, after, (s s'). intros t Ht.
  destruct (H t Ht) as [H1 H2]. destruct (E t Ht) as [E1 E2]. unfold written in *. rewrite E1, Hf, H1, E2, H2, <- !app_assoc. auto.
Qed.

Lemma plug_child : forall C t, match C with CHere => True | CGroup _ l C' r | CFenced _ _ _ l C' r | CTable _ _ _ _ l C' r _ _ _ | CVisual _ l C' r | CScript _ _ l C' r => In (plug C' t) (children (plug C t)) end.
Proof.
  intros [| | |g lines above before l C r behind below breaks| |] t; cbn [plug children]; try exact I; try (apply in_or_app; right; left; reflexivity).
  apply in_concat. exists (l ++ plug C t :: r). split; [|apply in_or_app; right; left; reflexivity]. apply in_concat. exists (before ++ (l ++ plug C t :: r) :: behind). split; apply in_or_app; right; left; reflexivity.
Qed.

Ltac child Hp Hf IH :=
  match type of Hp with proper (plug ?X ?G) = true =>
    let Hin := fresh "Hin" in let Hq := fresh "Hq" in let Hg := fresh "Hg" in
    pose proof (plug_child X G) as Hin; cbv iota in Hin; pose proof (proper_children _ _ Hp Hin) as Hq;
    pose proof (proj2 (Forall_forall _ _) (fun e He => proj1 (Forall_forall _ _) Hf e (child_events _ _ Hp Hin e He))) as Hg; specialize (IH Hq Hg) end.
Lemma ctx_hole : forall C g0, proper (plug C g0) = true -> Forall (fine None) (events (plug C g0)) -> forall p k prev after, hole (fun t => draw (plug C t) p k prev after) written rest.
Proof.
  intros C g0. induction C as [|cs l C IH r|a b cs l C IH r|g lines above before l C IH r behind below breaks|v l C IH r|ty pos l C IH r]; intros Hp Hf p k prev after.
  - exists [], [], p, k, prev, after. exists (k, Some (if fences then AtClose else AtInner)). intros t Ht. rewrite app_nil_r. split; [reflexivity|]. unfold is_enclosed in Ht. destruct t; try discriminate; cbn [plug rest SpecDraw.draw fst snd]; destruct fences; try discriminate; reflexivity.
  - child Hp Hf IH. eapply (linear_hole (fun x => [Elem (lit "mrow") (look_atts (as_script p) (fold_left changed cs k)) x]) (fun t => draw_all draw in_body 0 (l ++ plug C t :: r) (font_only (fold_left changed cs k)) None None) _ (fun _ => (k, Some AtInner))).
    + apply linear_elem, linear_id.
    + apply list_hole. exact IH.
    + intros t Ht. split; reflexivity.
  - child Hp Hf IH. eapply (linear_hole (fun x => [Elem (lit "mrow") (look_atts (as_script p) (fold_left changed cs k)) (draw_fence (as_script p) (font_only (fold_left changed cs k)) a ++ x ++ draw_fence (as_script p) k b)]) (fun t => draw_all draw in_body 0 (l ++ plug C t :: r) (font_only (fold_left changed cs k)) (Some AtOpen) None) _ (fun _ => (k, Some AtClose))).
    + apply linear_elem. apply (linear_app (fun x => x)), linear_id.
    + apply list_hole. exact IH.
    + intros t Ht. split; reflexivity.
  - child Hp Hf IH. cbn [plug proper] in Hp. apply andb_prop in Hp as [Hp _].
    eapply (linear_hole (fun x => [draw_table g lines (map (map (draw_cell draw)) above ++ (map (draw_cell draw) before ++ x :: map (draw_cell draw) behind) :: map (map (draw_cell draw)) below) breaks])
       (fun t => draw_all draw in_body 0 (l ++ plug C t :: r) plain_look None None) _ (fun _ => (k, Some AtInner))).
    + apply table_linear.
      * unfold table_ok in Hp. destruct (marks g); [|discriminate]. apply andb_prop in Hp as [Hp _]. apply andb_prop in Hp as [_ Hp]. apply Nat.eqb_eq in Hp. rewrite app_length in *. cbn [length] in *. rewrite !map_length. exact Hp.
      * rewrite !map_length. replace (length before + S (length behind))%nat with (length (before ++ (l ++ plug C g0 :: r) :: behind)) by (rewrite app_length; reflexivity).
        apply (row_fits _ _ _ _ _ Hp); [|apply in_or_app; right; left; reflexivity]. cbn [plug events] in Hf. apply Forall_inv in Hf. destruct g; exact I || exact Hf.
    + apply list_hole. exact IH.
    + intros t Ht. split; [|reflexivity]. cbn [plug SpecDraw.draw]. unfold xmls at 1. cbn [fst]. rewrite map_app. cbn [map]. rewrite map_app. cbn [map]. reflexivity.
  - child Hp Hf IH. assert (Hs : forall t, enclosed t = true -> match l ++ plug C t :: r with [TContent _] => False | _ => True end).
    { intros t Ht. destruct l as [|x [|y l]]; [|destruct x; exact I|destruct x; exact I]. cbn [app]. destruct C; cbn [plug]; try exact I. destruct t; try discriminate; exact I. }
    eapply (linear_hole (fun x => [Elem (visual_name v) (look_atts match v with VNegation => as_script p | _ => false end k ++ match v with VFraction (Some d) => [Att (lit "linethickness") (dim_display d)] | VNegation => class (lit "mop-negated") | _ => [] end) x])
       (fun t => draw_all draw (PVisual v) 0 (l ++ plug C t :: r) k prev after) _ (fun s => (fst s, match v with VSqrt | VNegation => Some AtInner | _ => snd s end))).
    + apply linear_elem, linear_id.
    + apply list_hole. exact IH.
    + intros t Ht. specialize (Hs t Ht). cbn [plug]. generalize dependent (l ++ plug C t :: r). intros ts Hs. destruct v.
      1,2,3: cbn [SpecDraw.draw]; match goal with |- context [draw_all ?d ?a 0 ?l ?k0 ?q ?f] => destruct (draw_all d a 0 l k0 q f) as [[x k2] p2] end; split; reflexivity.
      destruct ts as [|[] [|t1 ts]]; try contradiction; cbn [SpecDraw.draw]; match goal with |- context [draw_all ?d ?a 0 ?l ?k0 ?q ?f] => destruct (draw_all d a 0 l k0 q f) as [[x k2] p2] end; split; reflexivity.
  - child Hp Hf IH. eapply (linear_hole (fun x => [] ++ [Elem (script_name ty (above_below block k pos)) (look_atts false k) x] ++ (if existsb is_function (l ++ r) then applied after else []))
       (fun t => draw_all draw PScript 0 (l ++ plug C t :: r) k prev after) _ (fun s => s)).
    + apply (linear_app (fun x => [Elem (script_name ty (above_below block k pos)) (look_atts false k) x])). apply linear_elem, linear_id.
    + apply list_hole. exact IH.
    + intros t Ht. cbn [plug SpecDraw.draw]. destruct (draw_all draw PScript 0 (l ++ plug C t :: r) k prev after) as [[x k2] p2]. rewrite !existsb_app. cbn [existsb]. rewrite (plug_not C t Ht). split; reflexivity.
Qed.
End Draw.
