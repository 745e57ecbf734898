(** * RenderDrawn: the document written for a stream is the drawing of its trees. *)

From Coq Require Import List Arith NArith ZArith Bool Lia.
From Verif Require Import Base Float32 Event Tables Prim FontTable Spans DisplayFacts Mathml SpecEvent SpecStream SpecXml XmlFacts RenderFacts TableFacts RenderTree RenderDoc RenderPanic SpecDraw RenderDraw RenderRows DrawTrees DrawFacts DrawScope DrawHole.
Import ListNotations.
Open Scope N_scope.
Open Scope sm_scope.
Open Scope list_scope.

Section Config.
Variable cfg : render_config.

Lemma all_good : forall t, good cfg t.
Proof.
  fix IH 1. intros t.
  assert (L : forall ts, Forall (good cfg) ts).
  { fix go 1. intros [|t' ts]; [constructor|]. constructor; [exact (IH t')|exact (go ts)]. }
  destruct t as [c|w h d|c|ls|cs body|l r cs body|g lines rows breaks|v ts|ty pos ts].
  - apply good_content.
  - apply good_space.
  - apply good_state.
  - apply good_lost.
  - apply good_group. apply L.
  - apply good_fenced. apply L.
  - apply good_table. clear -L.
    induction rows as [|row rows IHr]; [constructor|]. constructor; [|exact IHr].
    induction row as [|cell row IHc]; [constructor|]. constructor; [apply L|exact IHc].
  - destruct v; try (apply good_plain_visual; [discriminate|apply L]). apply good_negation. apply L.
  - apply good_script. apply L.
Qed.
(** What the formula is drawn as. *)
Definition formula (ts : list tree) : list xml :=
  xmls (draw_all (draw (block_of cfg) (upright_of cfg) glyph_of) in_body 0 ts plain_look None None).
Definition drawing_of (ts : list tree) : xml := document_of (block_of cfg) (c_xml cfg) (c_annotation cfg) (formula ts).

Lemma loop_more : forall f r r1, render_loop cfg f r = (Ok tt, r1) -> forall g, (f <= g)%nat -> render_loop cfg g r = (Ok tt, r1).
Proof.
  induction f as [|f IH]; intros r r1 H g Hg; [discriminate|]. destruct g as [|g]; [lia|]. cbn [render_loop] in *. unfold bind at 1 in H. unfold bind at 1.
  destruct (in_next r) as [[[i|]| | |] r2]; try discriminate; [|exact H].
  unfold bind in *. destruct (render_item cfg i r2) as [[x| | |] r3]; try discriminate. apply (IH _ _ H). lia.
Qed.

Lemma document_print : forall x, prologue cfg ++ prints x ++ epilogue cfg = print (document_of (block_of cfg) (c_xml cfg) (c_annotation cfg) x).
Proof.
  intros x. unfold document_of, prologue, epilogue, block_of. rewrite print_elem. destruct (c_annotation cfg) as [a|].
  - rewrite prints_cons, print_elem, !prints_cons, !print_elem. destruct (c_xml cfg), (c_display cfg); cbn [prints flat_map]; rewrite ?app_nil_r; same_text.
  - destruct (c_xml cfg), (c_display cfg); same_text.
Qed.

Lemma push_drawn : forall string ts, well_formed (all_events ts) -> Forall (fine None) (all_events ts) -> forallb proper ts = true ->
  push_mathml cfg string (map RIEvent (all_events ts)) = Ok (string ++ print (drawing_of ts)).
Proof.
  intros string ts (b & Hw) Hf Hp. set (es := all_events ts) in *.
  set (r0 := set_out (string ++ prologue cfg)%list (new_writer string (map RIEvent es))).
  set (root := match c_annotation cfg with Some _ => mrow | None => math end).
  set (base := match c_annotation cfg with Some _ => [(sem, 1%nat); (math, 1%nat)] | None => [] end).
  assert (Hroot : holds_formulas root = true) by (unfold root; destruct (c_annotation cfg); reflexivity).
  assert (HS : Sim any root base start_frames ((root, O) :: base) r0 (map RIEvent es)).
  { split; [apply W_base|]. split; [split; reflexivity|]. unfold RenderTree.rest; cbv zeta; rewrite as_event_id. split; [exists b; exact Hw|]. split; [exact Hf|discriminate]. }
  destruct (loop_spec any root base Hroot cfg (S (length (map RIEvent es))) start_frames _ r0 (map RIEvent es) (Nat.lt_succ_diag_r _) HS) as (r1 & l & k & E1 & _ & _ & N1 & _).
  rewrite map_length in E1.
  destruct (good_body cfg ts 0 plain_look None [] r0 [] [] (string ++ prologue cfg)) as (r2 & (m & H2) & A2); try assumption.
  { clear. induction ts; constructor; [apply all_good|assumption]. }
  { exact I. }
  { unfold is_at. rewrite app_nil_r. repeat split; reflexivity. }
  cbn [next_class] in A2. fold (formula ts) in A2. destruct A2 as (_ & _ & _ & Ho & Hs).
  assert (E2 : render_loop cfg (m + 1) r0 = (Ok tt, r2)).
  { rewrite H2. cbn [render_loop]. unfold bind, in_next. pose proof (next_stream ritem (r_in r2)) as P. destruct (mp_next (r_in r2)) as [[x|] m']; [rewrite Hs in P; discriminate|].
    destruct P as [-> _]. destruct r2; reflexivity. }
  assert (r1 = r2). { pose proof (loop_more _ _ _ E1 (S (length es) + (m + 1)) ltac:(lia)) as X1. pose proof (loop_more _ _ _ E2 (S (length es) + (m + 1)) ltac:(lia)) as X2. congruence. }
  subst r2. unfold push_mathml, write. unfold bind at 1. unfold wr at 1, modify at 1. unfold bind at 1. rewrite in_length_spec.
  change (set_out (r_out (new_writer string (map RIEvent es)) ++ prologue cfg) (new_writer string (map RIEvent es))) with r0.
  replace (length (stream (r_in r0))) with (length es) by (symmetry; exact (map_length RIEvent es)).
  unfold bind at 1. rewrite E1. unfold bind, recovery, wr, modify. cbn [r_out set_out]. rewrite N1. cbn [flat_map].
  rewrite app_nil_r, Ho. unfold drawing_of. rewrite <- document_print, <- !app_assoc. reflexivity.
Qed.
End Config.

(** ** Parts of the document *)

Lemma in_document : forall cfg ts x, appears x (formula cfg ts) -> appears x [drawing_of cfg ts].
Proof.
  intros cfg ts x H. unfold drawing_of, document_of. apply appears_in. destruct (c_annotation cfg); [|exact H].
  apply appears_in. eapply appears_inside; [left; reflexivity|exact H].
Qed.

Definition no_fonts (es : list event) : Prop := forall f, ~ In (EvState (SCFont (Some f))) es.

Lemma text_drawn : forall cfg string es s, well_formed es -> Forall (fine None) es -> In (EvContent (CText s)) es ->
  exists doc f atts x, push_mathml cfg string (map RIEvent es) = Ok (string ++ print doc) /\
    appears (Elem (lit "mtext") atts [Chars x]) [doc] /\ decodes x (seen glyph_of f s) /\ (no_fonts es -> f = None).
Proof.
  intros cfg string es s Hw Hf Hin. destruct (stream_trees es Hw) as (ts & <- & Hp). exists (drawing_of cfg ts).
  assert (Hi : inside (TContent (CText s)) ts) by (apply event_inside; exact Hin).
  set (none := forallb (fun e => match e with EvState (SCFont (Some _)) => false | _ => true end) (all_events ts)).
  destruct (nodes_drawn (block_of cfg) (upright_of cfg) glyph_of (fun c => match c with SCFont (Some _) => none = false | _ => True end) (fun k => none = false \/ k_font k = None)) with
    (t := TContent (CText s)) (ts := ts) (at_ := in_body) (i := 0%nat) (k := plain_look) (prev := @None atom_class) (after := @None atom_class) as (p & k & prev & after & Hk & H); try assumption; try reflexivity.
  - right. reflexivity.
  - intros k [H|H]; [left; exact H|right; exact H].
  - intros k c Hc [H|H]; [left; exact H|]. destruct c as [[f|]|[] []|[]]; try (right; exact H); try (left; exact Hc). right. reflexivity.
  - apply Forall_forall. intros e He. unfold may. destruct e as [| | | | | |c|]; try exact I. destruct c as [[f|]| |]; try exact I. unfold none.
    destruct (forallb _ (all_events ts)) eqn:E; [|reflexivity]. rewrite forallb_forall in E. discriminate (E _ He).
  - right. reflexivity.
  - exists (k_font k), (look_atts (as_script p) k), (text_of glyph_of k s). split; [apply push_drawn; assumption|]. split; [|split; [apply text_decodes|]].
    + apply in_document, H. apply appears_here. left. reflexivity.
    + intros Hn. destruct Hk as [Hk|Hk]; [|exact Hk]. exfalso. unfold none in Hk. assert (E : forallb (fun e => match e with EvState (SCFont (Some _)) => false | _ => true end) (all_events ts) = true).
      { apply forallb_forall. intros e He. destruct e as [| | | | | |c|]; try reflexivity. destruct c as [[f|]| |]; try reflexivity. destruct (Hn f He). } congruence.
Qed.

Lemma text_plain_drawn : forall cfg string es s, well_formed es -> Forall (fine None) es -> In (EvContent (CText s)) es ->
  no_fonts es -> starts_blank s = false -> starts_blank (rev s) = false ->
  exists doc atts x, push_mathml cfg string (map RIEvent es) = Ok (string ++ print doc) /\
    appears (Elem (lit "mtext") atts [Chars x]) [doc] /\ decodes x s /\ forall t, decodes x t -> t = s.
Proof.
  intros cfg string es s Hw Hf Hi Hn H1 H2. destruct (text_drawn cfg string es s Hw Hf Hi) as (doc & f & atts & x & A & B & D & E).
  rewrite (E Hn), (seen_plain glyph_of s H1 H2) in D. exists doc, atts, x. repeat split; try assumption. intros t Ht. exact (decodes_once _ _ Ht _ D).
Qed.

Lemma array_drawn : forall cfg ts cols lines rows breaks, well_formed (all_events ts) -> Forall (fine None) (all_events ts) -> forallb proper ts = true ->
  inside (TTable (GArray cols) lines rows breaks) ts ->
  exists atts trs, appears (Elem (lit "mtable") atts trs) [drawing_of cfg ts] /\
    forall row, In row rows -> (length row <= length (filter is_col cols))%nat /\
      exists a cells, In (Elem (lit "mtr") a cells) trs /\
        arranged (map (draw_cell (draw (block_of cfg) (upright_of cfg) glyph_of)) row) (extra (S (length cols)) (length row) cols) cells.
Proof.
  intros cfg ts cols lines rows breaks Hw Hf Hp Hi.
  destruct (nodes_drawn (block_of cfg) (upright_of cfg) glyph_of (fun _ => True) (fun _ => True)) with
    (t := TTable (GArray cols) lines rows breaks) (ts := ts) (at_ := in_body) (i := 0%nat) (k := plain_look) (prev := @None atom_class) (after := @None atom_class) as (p & k & prev & after & _ & H); try assumption; try exact I; auto.
  { apply Forall_forall. intros e _. destruct e; exact I. }
  set (d := draw_cell (draw (block_of cfg) (upright_of cfg) glyph_of)).
  exists (classes (table_classes (GArray cols))), (table_body (GArray cols) lines (map (map d) rows) breaks). split.
  { apply in_document, H. apply (draw_table_has (GArray cols) lines (map (map d) rows) breaks). }
  assert (Ht : proper (TTable (GArray cols) lines rows breaks) = true /\ Forall (fine None) (events (TTable (GArray cols) lines rows breaks))).
  { clear -Hi Hp Hf. induction Hi as [ts H|u ts H H1 IH].
    - rewrite forallb_forall in Hp. split; [auto|]. rewrite Forall_forall in *. intros e He. apply Hf. apply in_flat_map. eauto.
    - rewrite forallb_forall in Hp. specialize (Hp u H). apply IH.
      + rewrite Forall_forall in *. intros e He. apply in_flat_map in He as (t & Ht & He). apply Hf. apply in_flat_map. exists u. split; [exact H|]. apply (child_events u t Hp Ht). exact He.
      + apply forallb_forall. intros t Ht. apply (proper_children u t Hp Ht). }
  destruct Ht as [Ht Hft]. cbn [proper] in Ht. apply andb_prop in Ht as [Ht _]. cbn [events] in Hft. apply Forall_inv in Hft. cbn [fine] in Hft.
  intros row Hr. pose proof (row_fits (GArray cols) lines rows breaks row Ht Hft Hr) as Hl. cbn [fits] in Hl. split; [exact Hl|].
  destruct (draw_rows_has (GArray cols) (map (map d) rows) (match lines with Some ls => ls | None => [] end) breaks (map d row)) as [a Ha].
  { unfold table_ok in Ht. destruct (marks (GArray cols)); [|discriminate]. apply andb_prop in Ht as [Ht _]. apply andb_prop in Ht as [_ Ht]. apply Nat.eqb_eq in Ht. rewrite map_length. exact Ht. }
  { apply in_map. exact Hr. }
  exists a, (array_row cols (map d row)). split; [exact Ha|].
  pose proof (array_arranged cols (map d row)) as A. rewrite map_length in A. apply A. exact Hl.
Qed.

Lemma group_extent : forall cfg string l C r fences g1 g2, is_enclosed fences g1 = true -> is_enclosed fences g2 = true ->
  (forall g, g = g1 \/ g = g2 -> well_formed (all_events (l ++ plug C g :: r)) /\ Forall (fine None) (all_events (l ++ plug C g :: r)) /\ forallb proper (l ++ plug C g :: r) = true) ->
  exists before behind p k prev after, forall g, g = g1 \/ g = g2 ->
    push_mathml cfg string (map RIEvent (all_events (l ++ plug C g :: r))) =
    Ok (before ++ prints (xmls (draw (block_of cfg) (upright_of cfg) glyph_of g p k prev after)) ++ behind).
Proof.
  intros cfg string l C r fences g1 g2 H1 H2 H.
  destruct (H g1 (or_introl eq_refl)) as (_ & Hf & Hp).
  assert (HC : forall p k prev after, hole (block_of cfg) (upright_of cfg) glyph_of fences (fun t => draw (block_of cfg) (upright_of cfg) glyph_of (plug C t) p k prev after) written rest).
  { apply (ctx_hole _ _ _ _ C g1).
    - rewrite forallb_app in Hp. apply andb_prop in Hp as [_ Hp]. cbn [forallb] in Hp. apply andb_prop in Hp as [Hp _]. exact Hp.
    - rewrite all_events_app, all_events_cons in Hf. apply Forall_app in Hf as [_ Hf]. apply Forall_app in Hf as [Hf _]. exact Hf. }
  pose proof (list_hole _ _ _ _ C in_body l r 0%nat plain_look None None HC) as (pre & post & p & k & prev & after & s & G).
  exists (string ++ prologue cfg ++ pre), (post ++ epilogue cfg), p, k, prev, after. intros g Hg. destruct (H g Hg) as (Hw & Hfg & Hpg). rewrite push_drawn by assumption.
  assert (Hge : is_enclosed fences g = true) by (destruct Hg as [->| ->]; assumption). destruct (G g Hge) as [Hw1 _]. unfold written in Hw1. 
  unfold drawing_of. rewrite <- document_print. unfold formula. rewrite Hw1, <- !app_assoc. reflexivity.
Qed.

(** The same for streams. *)
Lemma stream_extent : forall cfg string pre g b1 b2 post, marks g = None -> well_formed b1 -> well_formed b2 ->
  well_formed (pre ++ EvBegin g :: b1 ++ EvEnd :: post) ->
  Forall (fine None) (pre ++ EvBegin g :: b1 ++ EvEnd :: post) -> Forall (fine None) b2 ->
  exists before behind p k prev after, forall b, b = b1 \/ b = b2 -> exists t, events t = EvBegin g :: b ++ [EvEnd] /\ proper t = true /\
    push_mathml cfg string (map RIEvent (pre ++ EvBegin g :: b ++ EvEnd :: post)) =
    Ok (before ++ prints (xmls (draw (block_of cfg) (upright_of cfg) glyph_of t p k prev after)) ++ behind).
Proof.
  intros cfg string pre g b1 b2 post Hg H1 H2 Hw Hf Hf2.
  destruct (group_place pre g b1 post Hg H1 Hw) as (l & C & r & HC).
  destruct (group_tree g b1 Hg H1) as (t1 & E1 & P1 & K1). destruct (group_tree g b2 Hg H2) as (t2 & E2 & P2 & K2).
  assert (S1 : settled t1 = true) by (destruct t1; discriminate || reflexivity). assert (S2 : settled t2 = true) by (destruct t2; discriminate || reflexivity).
  assert (A : forall b t, events t = EvBegin g :: b ++ [EvEnd] -> pre ++ events t ++ post = pre ++ EvBegin g :: b ++ EvEnd :: post).
  { intros b t ->. cbn [app]. rewrite <- app_assoc. reflexivity. }
  pose proof (HC t1 S1 P1) as [G1 Q1]. pose proof (HC t2 S2 P2) as [G2 Q2]. rewrite (A b1 t1 E1) in G1. rewrite (A b2 t2 E2) in G2.
  destruct (group_extent cfg string l C r _ t1 t2 K1 K2) as (before & behind & p & k & prev & after & G).
  { intros t [->| ->]; [rewrite G1|rewrite G2]; (split; [|split; [|assumption]]); try assumption.
    - apply (group_swap g b2 (CText []) pre post Hg H2). apply (group_swap g b1 (CText []) pre post Hg H1). exact Hw.
    - apply Forall_app in Hf as [Hpre Hf]. apply Forall_app. split; [exact Hpre|]. inversion Hf as [|e es Hb Hf']; subst. constructor; [exact Hb|].
      apply Forall_app in Hf' as [_ Hf']. apply Forall_app. split; [exact Hf2|exact Hf']. }
  exists before, behind, p, k, prev, after. intros b [->| ->].
  - exists t1. split; [exact E1|]. split; [exact P1|]. rewrite <- G1. apply G. auto.
  - exists t2. split; [exact E2|]. split; [exact P2|]. rewrite <- G2. apply G. auto.
Qed.
