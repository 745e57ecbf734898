(** * DrawFacts: where the nodes of a formula are in its drawing. *)

From Coq Require Import List Arith NArith ZArith Bool Lia.
From Verif Require Import Base Float32 Event Tables Prim Spans SpecEvent SpecStream SpecDraw DrawTrees.
Import ListNotations.
Open Scope N_scope.
Open Scope list_scope.

(** An element somewhere among these elements. *)
Inductive appears (x : xml) : list xml -> Prop :=
| appears_here : forall l, In x l -> appears x l
| appears_inside : forall n a c l, In (Elem n a c) l -> appears x c -> appears x l.

(** A node somewhere among these nodes. *)
Definition children (t : tree) : list tree :=
  match t with
  | TGroup _ body | TFenced _ _ _ body => body
  | TTable _ _ rows _ => concat (concat rows)
  | TVisual _ ts | TScript _ _ ts => ts
  | _ => []
  end.
Inductive inside (t : tree) : list tree -> Prop :=
| inside_here : forall ts, In t ts -> inside t ts
| inside_child : forall u ts, In u ts -> inside t (children u) -> inside t ts.

Lemma appears_incl : forall x l l', appears x l -> incl l l' -> appears x l'.
Proof. intros x l l' H Hi. destruct H as [l H|n a c l H H1]; [apply appears_here; auto|eapply appears_inside; [apply Hi; exact H|exact H1]]. Qed.
Lemma appears_in : forall x n a c, appears x c -> appears x [Elem n a c].
Proof. intros. eapply appears_inside; [left; reflexivity|assumption]. Qed.

(** ** Tables *)

Lemma array_cells_has : forall cs lead contents x, (length contents <= length cs)%nat -> In x contents -> exists cls, In (cell cls x) (array_cells lead cs contents).
Proof.
  induction cs as [|[a ls] cs IH]; intros lead contents x Hl Hx; [destruct contents; [destruct Hx|cbn in Hl; lia]|].
  destruct contents as [|y contents]; [destruct Hx|]. cbn [array_cells]. destruct Hx as [->|Hx]; [eexists; left; reflexivity|].
  cbn [length] in Hl. destruct (IH [] contents x ltac:(lia) Hx) as [cls H]. exists cls. right. apply in_or_app. right. exact H.
Qed.
Lemma columns_length : forall cols, length (snd (columns cols)) = length (filter is_col cols).
Proof. induction cols as [|[a|l] cols IH]; [reflexivity| |]; cbn; destruct (columns cols); cbn in *; lia. Qed.

Definition fits (g : grouping) (n : nat) : Prop := match g with GArray cols => (n <= length (filter is_col cols))%nat | _ => True end.
Lemma row_cells_has : forall g row x, fits g (length row) -> In x row -> exists cls, In (cell cls x) (row_cells g row).
Proof.
  intros g row x Hf Hx.
  assert (Hplain : exists cls, In (cell cls x) (map (cell []) row)) by (exists []; apply in_map; exact Hx).
  destruct g; try exact Hplain. cbn [row_cells fits] in *. unfold array_row. rewrite <- columns_length in Hf. destruct (columns cols) as [ls cs]. cbn [snd] in Hf.
  destruct (array_cells_has cs (match ls with [] => [] | _ => [lit "menv-left-" ++ line_name (last ls LSolid)] end) row x Hf Hx) as [cls H]. exists cls. apply in_or_app. right. exact H.
Qed.
Lemma draw_rows_has : forall g rows ls breaks row, length rows = S (length breaks) -> In row rows -> exists a, In (Elem (lit "mtr") a (row_cells g row)) (draw_rows g ls rows breaks).
Proof.
  intros g. induction rows as [|row' rows IH]; intros ls breaks row Hl Hr; [destruct Hr|]. cbn [draw_rows]. destruct Hr as [->|Hr].
  - eexists. apply in_or_app. left. unfold with_lines. apply in_or_app. right. left. reflexivity.
  - destruct breaks as [|[d ls'] breaks]; [destruct rows; [destruct Hr|discriminate Hl]|]. cbn [length] in Hl. injection Hl as Hl.
    destruct (IH ls' breaks row Hl Hr) as [a H]. exists a. apply in_or_app. right. apply in_or_app. right. exact H.
Qed.

Definition table_body (g : grouping) (lines : option (list line)) (rows : list (list (list xml))) (breaks : list (option dimension * list line)) : list xml :=
  match g with
  | GEquation _ => [Elem (lit "mtr") [] [cell [] (concat (concat rows))]]
  | _ => draw_rows g (match lines with Some ls => ls | None => [] end) rows breaks
  end.
Lemma draw_table_has : forall g lines rows breaks, appears (Elem (lit "mtable") (classes (table_classes g)) (table_body g lines rows breaks)) [draw_table g lines rows breaks].
Proof.
  intros g lines rows breaks. unfold draw_table. fold (table_body g lines rows breaks).
  assert (H : forall l, In (Elem (lit "mtable") (classes (table_classes g)) (table_body g lines rows breaks)) l -> appears (Elem (lit "mtable") (classes (table_classes g)) (table_body g lines rows breaks)) [Elem (lit "mrow") [] l]).
  { intros l Hl. apply appears_in. apply appears_here. exact Hl. }
  destruct g as [| | | | lft | | | | | | | | | |]; try (apply appears_here; left; reflexivity). destruct lft; apply H; cbn; auto.
Qed.

Lemma table_cell_has : forall g lines rows breaks row c x, length rows = S (length breaks) -> fits g (length row) -> In row rows -> In c row -> appears x c ->
  appears x [draw_table g lines rows breaks].
Proof.
  intros g lines rows breaks row c x Hl Hf Hr Hc Hx.
  assert (B : appears x (table_body g lines rows breaks)).
  { assert (Hrows : appears x (draw_rows g (match lines with Some ls => ls | None => [] end) rows breaks)).
    { destruct (draw_rows_has g rows (match lines with Some ls => ls | None => [] end) breaks row Hl Hr) as [a Ha]. eapply appears_inside; [exact Ha|].
      destruct (row_cells_has g row c Hf Hc) as [cls Hcl]. eapply appears_inside; [exact Hcl|exact Hx]. }
    destruct g; try exact Hrows. cbn [table_body]. apply appears_in. apply appears_in. eapply appears_incl; [exact Hx|].
    intros y Hy. apply in_concat. exists c. split; [apply in_concat; eauto|exact Hy]. }
  pose proof (draw_table_has g lines rows breaks) as Ht. revert Ht. generalize [draw_table g lines rows breaks]. clear -B. intros l Ht.
  induction Ht as [l H|n a c l H H1 IH]; [eapply appears_inside; [exact H|exact B]|eapply appears_inside; [exact H|exact IH]].
Qed.

(** ** Nodes *)

(** A negated character, which has no element of its own. *)
Definition slashed (u : tree) : bool := match u with TVisual VNegation [TContent c] => can_slash c | _ => false end.

Section Draw.
Variable block : bool.
Variable upright : char -> bool.
Variable glyph : font -> char -> char.
Notation draw := (draw block upright glyph).

(** What holds of the look of every node: it holds at the start, and the changes
    of the formula keep it. *)
Variable allowed : state_change -> Prop.
Variable ok : look -> Prop.
Hypothesis ok_plain : ok plain_look.
Hypothesis ok_font : forall k, ok k -> ok (font_only k).
Hypothesis ok_change : forall k c, allowed c -> ok k -> ok (changed k c).
Definition may (e : event) : Prop := match e with EvState c => allowed c | _ => True end.

Lemma draw_keeps : forall t, Forall may (events t) -> forall p k prev after, ok k -> ok (snd (fst (draw t p k prev after))).
Proof.
  fix IH 1. intros t.
  assert (L : forall ts, Forall may (flat_map events ts) -> forall at_ i k prev after, ok k -> ok (snd (fst (draw_all draw at_ i ts k prev after)))).
  { fix go 1. intros [|u ts] Hm at_ i k prev after Hk; [exact Hk|]. cbn [flat_map] in Hm. apply Forall_app in Hm as [H1 H2]. cbn [draw_all]. fold (draw_all draw at_).
    pose proof (IH u H1 (at_ i) k prev (first_of ts after) Hk) as K1. destruct (draw u (at_ i) k prev (first_of ts after)) as [[x k1] p1]. cbn [fst snd] in K1.
    pose proof (go ts H2 at_ (S i) k1 p1 after K1) as K2. destruct (draw_all draw at_ (S i) ts k1 p1 after) as [[xs k2] p2]. exact K2. }
  destruct t as [c|w h d|c|ls|cs body|l r cs body|g lines rows breaks|v ts|ty pos ts]; intros Hm p k prev after Hk; cbn [events] in Hm.
  - cbn [SpecDraw.draw]. destruct (draw_content upright glyph c false p k prev after). exact Hk.
  - exact Hk.
  - apply ok_change; [|exact Hk]. apply Forall_inv in Hm. exact Hm.
  - exact Hk.
  - exact Hk.
  - exact Hk.
  - exact Hk.
  - apply Forall_inv_tail in Hm. pose proof (fun at_ k prev after Hk => L ts Hm at_ 0%nat k prev after Hk) as K. clear L IH. destruct v.
    1,2,3: cbn [SpecDraw.draw]; match goal with |- context [draw_all ?d ?a 0 ?l ?k0 ?q ?f] => specialize (K a k0 q f Hk); destruct (draw_all d a 0 l k0 q f) as [[x k2] p2] end; exact K.
    specialize (K (PVisual VNegation) k prev after Hk). destruct ts as [|t0 [|t1 ts]].
    + exact Hk.
    + destruct t0; try (cbn [SpecDraw.draw]; match goal with |- context [draw_all draw ?a ?i ?l ?k ?p ?q] => destruct (draw_all draw a i l k p q) as [[x k2] p2] end; exact K).
      cbn [SpecDraw.draw]. destruct (can_slash c); [destruct (draw_content upright glyph c true p k prev (Some (class_of c)))|destruct (draw_content upright glyph c false (PVisual VNegation 0) k prev after)]; exact Hk.
    + cbn [SpecDraw.draw]. destruct t0; match goal with |- context [draw_all draw ?a ?i ?l ?k ?p ?q] => destruct (draw_all draw a i l k p q) as [[x k2] p2] end; exact K.
  - apply Forall_inv_tail in Hm. pose proof (L ts Hm PScript 0%nat k prev after Hk) as K. cbn [SpecDraw.draw]. destruct (draw_all draw PScript 0 ts k prev after) as [[x k2] p2]. exact K.
Qed.
Lemma changes_keep : forall cs k, Forall may (map EvState cs) -> ok k -> ok (fold_left changed cs k).
Proof. induction cs as [|c cs IH]; intros k Hm Hk; [exact Hk|]. cbn [map fold_left] in *. apply IH; [apply Forall_inv_tail in Hm; exact Hm|]. apply ok_change; [apply Forall_inv in Hm; exact Hm|exact Hk]. Qed.

Lemma draw_all_has : forall at_ ts i k prev after t, In t ts -> Forall may (all_events ts) -> ok k ->
  exists p' k' prev' after', ok k' /\ incl (xmls (draw t p' k' prev' after')) (xmls (draw_all draw at_ i ts k prev after)).
Proof.
  intros at_. induction ts as [|u ts IH]; intros i k prev after t Ht Hm Hk; [destruct Ht|]. cbn [draw_all]. fold (draw_all draw at_).
  rewrite all_events_cons in Hm. apply Forall_app in Hm as [Hm1 Hm2]. pose proof (draw_keeps u Hm1 (at_ i) k prev (first_of ts after) Hk) as K1.
  destruct (draw u (at_ i) k prev (first_of ts after)) as [[x k1] p1] eqn:E1. cbn [fst snd] in K1. destruct (draw_all draw at_ (S i) ts k1 p1 after) as [[xs k2] p2] eqn:E2.
  destruct Ht as [->|Ht].
  - exists (at_ i), k, prev, (first_of ts after). split; [exact Hk|]. rewrite E1. unfold xmls. cbn [fst]. apply incl_appl, incl_refl.
  - destruct (IH (S i) k1 p1 after t Ht Hm2 K1) as (p' & k' & prev' & after' & Hk' & H). exists p', k', prev', after'. split; [exact Hk'|]. rewrite E2 in H. unfold xmls in *. cbn [fst] in *. apply incl_appr. exact H.
Qed.

Lemma proper_children : forall u t, proper u = true -> In t (children u) -> proper t = true.
Proof.
  intros u t Hu Ht. destruct u; cbn [children proper] in *; try destruct Ht; repeat (apply andb_prop in Hu as [? Hu]).
  - rewrite forallb_forall in Hu. auto.
  - rewrite forallb_forall in Hu. auto.
  - apply in_concat in Ht as (c & Hc & Ht). apply in_concat in Hc as (r & Hr & Hc). rewrite forallb_forall in Hu. specialize (Hu r Hr). rewrite forallb_forall in Hu. specialize (Hu c Hc). rewrite forallb_forall in Hu. auto.
  - rewrite forallb_forall in Hu. auto.
  - rewrite forallb_forall in Hu. auto.
Qed.

Lemma row_fits : forall g lines rows breaks row, table_ok g lines rows breaks = true -> match g with GArray cols => existsb is_col cols = true | _ => True end -> In row rows -> fits g (length row).
Proof.
  intros g lines rows breaks row H Hg Hr. unfold table_ok in H. destruct (marks g) as [m|] eqn:Em; [|discriminate]. apply andb_prop in H as [H _]. apply andb_prop in H as [H _].
  rewrite forallb_forall in H. specialize (H row Hr). destruct g; try exact I. cbn in Em. injection Em as <-. cbn [fits]. destruct row as [|c row]; [discriminate|]. cbn [row_ok] in H. apply N.leb_le in H. cbn [length].
  assert (0 < length (filter is_col cols))%nat. { clear -Hg. induction cols as [|[]]; [discriminate| |]; cbn in *; [lia|auto]. } lia.
Qed.

Lemma between_has : forall l seps x, In x l -> (length l <= S (length seps))%nat -> incl x (between l seps).
Proof.
  induction l as [|y l IH]; intros seps x Hx Hl; [destruct Hx|]. cbn [length] in Hl. destruct Hx as [->|Hx].
  - destruct seps; cbn [between]; [apply incl_refl|apply incl_appl, incl_refl].
  - destruct seps as [|s seps]; [destruct l; [destruct Hx|cbn in Hl; lia]|]. cbn [between length] in *. apply incl_appr, incl_appr, IH; [exact Hx|lia].
Qed.
Lemma child_events : forall u t, proper u = true -> In t (children u) -> incl (events t) (events u).
Proof.
  assert (B : forall ts t, In t ts -> incl (events t) (flat_map events ts)) by (intros ts t Ht e He; apply in_flat_map; eauto).
  intros u t Hu Ht. destruct u as [| | | |cs body|l r cs body|g lines rows breaks|v ts|ty pos ts]; try destruct Ht; cbn [children events proper] in *.
  - apply incl_tl, incl_appr, incl_appl, B, Ht.
  - apply incl_tl, incl_appr, incl_appl, B, Ht.
  - apply in_concat in Ht as (c & Hc & Ht). apply in_concat in Hc as (row & Hr & Hc). apply incl_tl, incl_appr, incl_appl.
    apply andb_prop in Hu as [Hu _]. unfold table_ok in Hu. destruct (marks g); [|discriminate]. apply andb_prop in Hu as [Hu _]. apply andb_prop in Hu as [_ Hu]. apply Nat.eqb_eq in Hu.
    eapply incl_tran; [|apply between_has; [apply in_map; exact Hr|rewrite !map_length; lia]].
    unfold row_events. eapply incl_tran; [|apply between_has; [apply in_map; exact Hc|destruct row; cbn [map tl length]; rewrite ?map_length; lia]]. apply B, Ht.
  - apply incl_tl, B, Ht.
  - apply incl_tl, B, Ht.
Qed.

(** What is drawn for a child is within what is drawn for the node. *)
Lemma child_drawn : forall u t, proper u = true -> Forall (fine None) (events u) -> Forall may (events u) -> slashed u = false -> In t (children u) ->
  forall p k prev after, ok k -> exists p' k' prev' after', ok k' /\ forall x, appears x (xmls (draw t p' k' prev' after')) -> appears x (xmls (draw u p k prev after)).
Proof.
  assert (Hcs : forall cs body, Forall may (map EvState cs ++ flat_map events body ++ [EvEnd]) -> Forall may (map EvState cs)) by (intros cs body H; apply Forall_app in H; tauto).
  assert (Hbody : forall cs body, Forall may (map EvState cs ++ flat_map events body ++ [EvEnd]) -> Forall may (all_events body)) by (intros cs body H; apply Forall_app in H as [_ H]; apply Forall_app in H; tauto).
  assert (Hcell : forall g lines rows breaks row c, proper (TTable g lines rows breaks) = true -> Forall may (events (TTable g lines rows breaks)) -> In row rows -> In c row -> Forall may (all_events c)).
  { intros g lines rows breaks row c Hu Hm Hr Hc. rewrite Forall_forall in *. intros e He. apply in_flat_map in He as (t & Ht & He). apply Hm. apply (child_events _ t Hu); [|exact He]. apply in_concat. exists c. split; [apply in_concat; eauto|exact Ht]. }
  intros u t Hu Hf Hm Hs Ht p k prev after Hk. destruct u as [| | | |cs body|l r cs body|g lines rows breaks|v ts|ty pos ts]; try destruct Ht; cbn [children] in Ht.
  - cbn [events] in Hm. apply Forall_inv_tail in Hm. destruct (draw_all_has in_body body 0 (font_only (fold_left changed cs k)) None None t Ht (Hbody cs body Hm) (ok_font _ (changes_keep cs k (Hcs cs body Hm) Hk))) as (p' & k' & prev' & after' & Hk' & H). exists p', k', prev', after'. split; [exact Hk'|]. intros x Hx.
    cbn [SpecDraw.draw]. unfold xmls at 1. cbn [fst]. apply appears_in. eapply appears_incl; [exact Hx|exact H].
  - cbn [events] in Hm. apply Forall_inv_tail in Hm. destruct (draw_all_has in_body body 0 (font_only (fold_left changed cs k)) (Some AtOpen) None t Ht (Hbody cs body Hm) (ok_font _ (changes_keep cs k (Hcs cs body Hm) Hk))) as (p' & k' & prev' & after' & Hk' & H). exists p', k', prev', after'. split; [exact Hk'|]. intros x Hx.
    cbn [SpecDraw.draw]. unfold xmls at 1. cbn [fst]. apply appears_in. eapply appears_incl; [exact Hx|]. apply incl_appr, incl_appl. exact H.
  - apply in_concat in Ht as (c & Hc & Ht). apply in_concat in Hc as (row & Hr & Hc).
    destruct (draw_all_has in_body c 0 plain_look None None t Ht (Hcell g lines rows breaks row c Hu Hm Hr Hc) ok_plain) as (p' & k' & prev' & after' & Hk' & H). exists p', k', prev', after'. split; [exact Hk'|]. intros x Hx.
    cbn [SpecDraw.draw]. unfold xmls at 1. cbn [fst]. cbn [proper] in Hu. apply andb_prop in Hu as [Hu _].
    apply table_cell_has with (row := map (draw_cell draw) row) (c := draw_cell draw c).
    + unfold table_ok in Hu. destruct (marks g); [|discriminate]. apply andb_prop in Hu as [Hu _]. apply andb_prop in Hu as [_ Hu]. apply Nat.eqb_eq in Hu. rewrite map_length. exact Hu.
    + rewrite map_length. apply (row_fits g lines rows breaks); [exact Hu| |exact Hr]. cbn [events] in Hf. apply Forall_inv in Hf. destruct g; exact I || exact Hf.
    + apply in_map. exact Hr.
    + apply in_map. exact Hc.
    + unfold draw_cell. eapply appears_incl; [exact Hx|exact H].
  - assert (Hplain : (exists n a, xmls (draw (TVisual v ts) p k prev after) = [Elem n a (xmls (draw_all draw (PVisual v) 0 ts k prev after))]) ->
      exists p' k' prev' after', ok k' /\ forall x, appears x (xmls (draw t p' k' prev' after')) -> appears x (xmls (draw (TVisual v ts) p k prev after))).
    { intros (n & a & E). destruct (draw_all_has (PVisual v) ts 0 k prev after t Ht (Forall_inv_tail Hm) Hk) as (p' & k' & prev' & after' & Hk' & H). exists p', k', prev', after'. split; [exact Hk'|]. intros x Hx.
      rewrite E. apply appears_in. eapply appears_incl; [exact Hx|exact H]. }
    destruct v.
    1,2,3: apply Hplain; cbn [SpecDraw.draw]; destruct (draw_all draw _ 0 ts k prev after) as [[x k2] p2]; cbn; eauto.
    destruct ts as [|t0 [|t1 ts]].
    + destruct Ht.
    + destruct t0; try (apply Hplain; cbn [SpecDraw.draw]; match goal with |- context [draw_all ?d ?a ?i ?l ?k ?p ?q] => destruct (draw_all d a i l k p q) as [[x k2] p2] eqn:E end; do 2 eexists; unfold xmls; cbn [fst]; reflexivity).
      cbn [slashed] in Hs. destruct Ht as [<-|[]]. exists (PVisual VNegation 0), k, prev, after. split; [exact Hk|]. intros x Hx. cbn [SpecDraw.draw] in *. rewrite Hs.
      destruct (draw_content upright glyph c false (PVisual VNegation 0) k prev after) as [y q]. unfold xmls in *. cbn [fst] in *. apply appears_in. exact Hx.
    + apply Hplain. destruct t0; cbn [SpecDraw.draw]; match goal with |- context [draw_all ?d ?a ?i ?l ?k ?p ?q] => destruct (draw_all d a i l k p q) as [[x k2] p2] eqn:E end; do 2 eexists; unfold xmls; cbn [fst]; reflexivity.
  - destruct (draw_all_has PScript ts 0 k prev after t Ht (Forall_inv_tail Hm) Hk) as (p' & k' & prev' & after' & Hk' & H). exists p', k', prev', after'. split; [exact Hk'|]. intros x Hx.
    cbn [SpecDraw.draw]. destruct (draw_all draw PScript 0 ts k prev after) as [[y k2] p2]. unfold xmls in *. cbn [fst] in *. eapply appears_inside; [left; reflexivity|]. eapply appears_incl; [exact Hx|exact H].
Qed.

(** The node of an event that is a content, or the start of an environment. *)
Lemma nodes_drawn : forall t ts, inside t ts -> match t with TContent c => can_slash c = false | _ => True end ->
  forallb proper ts = true -> Forall (fine None) (all_events ts) -> Forall may (all_events ts) ->
  forall at_ i k prev after, ok k -> exists p' k' prev' after', ok k' /\ forall x, appears x (xmls (draw t p' k' prev' after')) -> appears x (xmls (draw_all draw at_ i ts k prev after)).
Proof.
  intros t ts H Hc Hp Hf Hm at_ i k prev after Hk.
  assert (G : forall u, proper u = true -> Forall (fine None) (events u) -> Forall may (events u) -> inside t (children u) -> forall p k prev after, ok k ->
      exists p' k' prev' after', ok k' /\ forall x, appears x (xmls (draw t p' k' prev' after')) -> appears x (xmls (draw u p k prev after))).
  { clear -Hc ok_plain ok_font ok_change. intros u Hu Hf Hm Hin. remember (children u) as l eqn:El. revert u Hu Hf Hm El.
      induction Hin as [ts H|w ts H H1 IH]; intros u Hu Hf Hm -> p k prev after Hk.
      - apply child_drawn; try assumption. destruct (slashed u) eqn:Es; [|reflexivity]. destruct u as [| | | | | | |[] [|[] []]|]; try discriminate Es. destruct H as [<-|[]]. cbn in Es. congruence.
      - assert (Hs : slashed u = false). { destruct (slashed u) eqn:Es; [|reflexivity]. destruct u as [| | | | | | |[] [|[] []]|]; try discriminate Es. destruct H as [<-|[]]. inversion H1; [destruct H|destruct H]. }
        destruct (child_drawn u w Hu Hf Hm Hs H p k prev after Hk) as (p1 & k1 & prev1 & after1 & K1 & G1).
        destruct (IH w (proper_children u w Hu H)) with (p := p1) (k := k1) (prev := prev1) (after := after1) as (p2 & k2 & prev2 & after2 & K2 & G2); try reflexivity; try assumption.
        { rewrite Forall_forall in *. intros e He. apply Hf. apply (child_events u w Hu H). exact He. }
        { rewrite Forall_forall in *. intros e He. apply Hm. apply (child_events u w Hu H). exact He. }
        exists p2, k2, prev2, after2. split; [exact K2|]. intros x Hx. apply G1, G2, Hx. }
  inversion H as [ts' H0|u ts' H0 H1]; subst ts'.
  - destruct (draw_all_has at_ ts i k prev after t H0 Hm Hk) as (p' & k' & prev' & after' & Hk' & Hi). exists p', k', prev', after'. split; [exact Hk'|]. intros x Hx. eapply appears_incl; eassumption.
  - assert (Hu : proper u = true) by (rewrite forallb_forall in Hp; auto).
    assert (Hfu : Forall (fine None) (events u)) by (rewrite Forall_forall in *; intros e He; apply Hf; apply in_flat_map; eauto).
    assert (Hmu : Forall may (events u)) by (rewrite Forall_forall in *; intros e He; apply Hm; apply in_flat_map; eauto).
    destruct (draw_all_has at_ ts i k prev after u H0 Hm Hk) as (p1 & k1 & prev1 & after1 & K1 & Hi).
    destruct (G u Hu Hfu Hmu H1 p1 k1 prev1 after1 K1) as (p2 & k2 & prev2 & after2 & K2 & G2).
    exists p2, k2, prev2, after2. split; [exact K2|]. intros x Hx. eapply appears_incl; [apply G2, Hx|exact Hi].
Qed.
End Draw.

(** A content of the stream is a node of the trees. *)
Lemma event_inside : forall c ts, In (EvContent c) (all_events ts) -> inside (TContent c) ts.
Proof.
  intros c. 
  assert (B : forall l seps, In (EvContent c) (between l seps) -> (forall s, In s seps -> ~ In (EvContent c) s) -> exists x, In x l /\ In (EvContent c) x).
  { induction l as [|y l IH]; intros seps H Hs; [destruct H|]. destruct seps as [|s seps]; cbn [between] in H; [exists y; split; [left; reflexivity|exact H]|].
    apply in_app_or in H as [H|H]; [exists y; split; [left; reflexivity|exact H]|]. apply in_app_or in H as [H|H]; [destruct (Hs s (or_introl eq_refl) H)|].
    destruct (IH seps H (fun s' Hs' => Hs s' (or_intror Hs'))) as (x & Hx & H'). exists x. split; [right; exact Hx|exact H']. }
  assert (G : forall t, In (EvContent c) (events t) -> t = TContent c \/ inside (TContent c) (children t)).
  { fix IH 1. intros t.
    assert (L : forall ts, In (EvContent c) (flat_map events ts) -> inside (TContent c) ts).
    { fix go 1. intros [|t' ts] H; [destruct H|]. cbn [flat_map] in H. apply in_app_or in H as [H|H].
      - destruct (IH t' H) as [->|H']; [apply inside_here; left; reflexivity|]. apply inside_child with t'; [left; reflexivity|exact H'].
      - destruct (go ts H) as [ts H'|u ts Hu H']; [apply inside_here; right; exact H'|apply inside_child with u; [right; exact Hu|exact H']]. }
    destruct t as [c'|w h d|c'|ls|cs body|l r cs body|g lines rows breaks|v ts|ty pos ts]; intros H; cbn [events children] in *.
    - left. destruct H as [H|[]]. congruence.
    - destruct H as [H|[]]; discriminate.
    - destruct H as [H|[]]; discriminate.
    - destruct H as [H|[]]; discriminate.
    - right. destruct H as [H|H]; [discriminate|]. apply in_app_or in H as [H|H]; [apply in_map_iff in H as (? & ? & _); discriminate|]. apply in_app_or in H as [H|[H|[]]]; [apply L, H|discriminate].
    - right. destruct H as [H|H]; [discriminate|]. apply in_app_or in H as [H|H]; [apply in_map_iff in H as (? & ? & _); discriminate|]. apply in_app_or in H as [H|[H|[]]]; [apply L, H|discriminate].
    - right. destruct H as [H|H]; [discriminate|]. apply in_app_or in H as [H|H]; [destruct lines; [destruct H as [H|[]]; discriminate|destruct H]|].
      apply in_app_or in H as [H|[H|[]]]; [|discriminate]. 
      assert (Hcell : forall rows, (exists x, In x (map (fun row => row_events (map (fun cell => flat_map events cell) row)) rows) /\ In (EvContent c) x) -> inside (TContent c) (concat (concat rows))).
      { clear H rows breaks lines. assert (W : forall a b, inside (TContent c) a \/ inside (TContent c) b -> inside (TContent c) (a ++ b)).
        { intros a b [[ts Hi|u ts Hu Hi]|[ts Hi|u ts Hu Hi]]; [apply inside_here|apply inside_child with u; [|exact Hi]|apply inside_here|apply inside_child with u; [|exact Hi]]; apply in_or_app; auto. }
        induction rows as [|row rows IHr]; intros (x & Hx & Hc); [destruct Hx|]. cbn [map concat] in *. rewrite concat_app. apply W.
        destruct Hx as [<-|Hx]; [left|right; apply IHr; eauto]. unfold row_events in Hc. apply B in Hc as (y & Hy & Hc); [|intros s Hs; apply in_map_iff in Hs as (? & <- & _); intros [E|[]]; discriminate].
        revert Hy. induction row as [|cell row IHc]; intros Hy; [destruct Hy|]. cbn [map concat] in *. apply W. destruct Hy as [<-|Hy]; [left; apply L, Hc|right; apply IHc, Hy]. }
      apply Hcell. apply B in H; [exact H|]. intros s Hs. apply in_map_iff in Hs as (? & <- & _). intros [E|[]]; discriminate.
    - right. destruct H as [H|H]; [discriminate|]. apply L, H.
    - right. destruct H as [H|H]; [discriminate|]. apply L, H. }
  intros ts H. apply in_flat_map in H as (t & Ht & H). destruct (G t H) as [->|H']; [apply inside_here; exact Ht|apply inside_child with t; assumption].
Qed.
