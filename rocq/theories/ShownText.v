(** * ShownText: what is shown of a text. *)

From Coq Require Import Ascii String List NArith ZArith Bool Lia Arith.
From Verif Require Import Base Float32 Event Tables Prim PrimTable Lex Macros Primitives Spans Parser Mathml PrimFacts Order Terminate Api SimRun
  SpecShown ShownFacts Whole SpecEvent SpecLex NoPanic SpecClean FineInput WholeFacts SpecFormula FormulaProps FormulaHole SpecFault FormulaFirst SpecBeyond FormulaDecide2 FormulaCore.
Import ListNotations.
Open Scope N_scope.
Open Scope list_scope.

#[local] Existing Instance nothing_known.

Lemma in_order_split : forall xs x ys t, in_order (xs ++ x :: ys) t -> exists a b, t = a ++ x ++ b /\ in_order xs a /\ in_order ys b.
Proof.
  induction xs as [|y xs IH]; intros x ys t H; cbn [app] in H.
  - inversion H; subst. exists a, t0. split; [reflexivity|]. split; [constructor|assumption].
  - inversion H as [|a y' l t' H']; subst. apply IH in H' as (a' & b & -> & Ha & Hb). exists (a ++ y ++ a'), b. split; [rewrite <- !app_assoc; reflexivity|].
    split; [constructor; exact Ha|exact Hb].
Qed.

Lemma converts_shown : forall cfg input l out, parses input l -> converts cfg input out ->
  exists xs, in_order xs out /\ Forall2 (shown (map to_ritem l)) (visibles (map to_ritem l)) xs.
Proof.
  intros cfg input l out Hp (l' & Hl' & H). rewrite (parses_det _ _ _ Hl' Hp) in H. apply all_shown in H as (d & xs & -> & Ho & Hs). exists xs. split; assumption.
Qed.

(** An error of the stream, and what is before it. *)
Lemma error_split : forall items l1 msg l2 xs out, items = l1 ++ RIErr msg :: l2 -> in_order xs out -> Forall2 (shown items) (visibles items) xs ->
  exists ys a h b, out = a ++ (lit "<merror style=""border-color: #" ++ h ++ lit """><mtext>" ++ msg ++ lit "</mtext></merror>") ++ b /\ ~ In 34 h /\
    in_order ys a /\ Forall2 (shown items) (visibles l1) ys.
Proof.
  intros items l1 msg l2 xs out E Ho Hs. change (Forall2 (shown items) (vis false items) xs) in Hs. rewrite E in Hs at 2. rewrite vis_app in Hs.
  apply Forall2_app_inv_l in Hs as (ys & zs & Hy & Hz & ->). change (vis (turn false l1) (RIErr msg :: l2)) with ((RIErr msg, turn false l1) :: vis false l2) in Hz.
  inversion Hz as [|p x ps zs' Hx Hzs]; subst p ps zs. apply in_order_split in Ho as (a & b & -> & Ha & _). inversion Hx as [m n h Hh| | | | | | | | | | |]; subst.
  exists ys, a, h, b. split; [reflexivity|]. split; [exact Hh|]. split; [exact Ha|exact Hy].
Qed.

Lemma converts_error : forall cfg input l pe out, parses input l -> In (ItError pe) l -> converts cfg input out ->
  contains (lit "<mtext>" ++ error_display pe ++ lit "</mtext></merror>") out.
Proof.
  intros cfg input l pe out Hp Hi Hc. destruct (converts_shown _ _ _ _ Hp Hc) as (xs & Ho & Hs). apply in_split in Hi as (l1 & l2 & ->). rewrite map_app in Hs. cbn [map to_ritem] in Hs.
  destruct (error_split _ _ _ _ _ _ eq_refl Ho Hs) as (ys & a & h & b & -> & _). unfold contains.
  exists (a ++ lit "<merror style=""border-color: #" ++ h ++ lit """>"), b. rewrite <- !app_assoc. reflexivity.
Qed.

Lemma view_split : forall l o pre e, view_of l o = (pre, EndError e) -> exists pe l', l = map ItEvent pre ++ ItError pe :: l' /\ pe_kind pe = e.
Proof.
  induction l as [|[ev|pe] l IH]; intros o pre e H; cbn [view_of] in H.
  - destruct o; discriminate.
  - destruct (view_of l o) as [evs x] eqn:E. injection H as <- ->. destruct (IH _ _ _ E) as (pe & l' & -> & He). exists pe, l'. split; [reflexivity|exact He].
  - injection H as <- <-. exists pe, l. split; reflexivity.
Qed.

Lemma shows_parses : forall t l v, shows (new_parser t) v -> parses t l -> v = view_of l ODone.
Proof.
  intros t l v (n & l' & o & q & H & Ho & ->) (m & p & H').
  destruct (Nat.le_gt_cases n m) as [Hle|Hle].
  - rewrite (run_more n) in H'; [|rewrite H; exact Ho|exact Hle]. congruence.
  - rewrite (run_more m) in H; [|rewrite H'; discriminate|lia]. congruence.
Qed.

Lemma to_ritem_events : forall es, map to_ritem (map ItEvent es) = map RIEvent es.
Proof. intros es. rewrite map_map. reflexivity. Qed.

Theorem plain_shown : forall cfg t, valid_str t -> calm t -> no_array_names t -> plain t ->
  exists out, converts cfg t out /\
    ((exists es xs, formula None t es /\ in_order xs out /\ Forall2 (shown (map RIEvent es)) (visibles (map RIEvent es)) xs) \/
     (exists al g pre e pe, SpecBeyond.part g t /\ comes_to t al g pre /\ @fault anything al g e /\ pe_kind pe = e /\
        exists items xs a h b, out = a ++ (lit "<merror style=""border-color: #" ++ h ++ lit """><mtext>" ++ error_display pe ++ lit "</mtext></merror>") ++ b /\
          ~ In 34 h /\ in_order xs a /\ Forall2 (shown (map RIEvent pre ++ items)) (visibles (map RIEvent pre)) xs)).
Proof.
  intros cfg t Hv Hc Hn Hp. destruct (calm_converts cfg t Hv Hc Hn) as (out & Ho). exists out. split; [exact Ho|]. pose proof Ho as (l & Hl & _).
  destruct (converts_shown _ _ _ _ Hl Ho) as (xs & Hx & Hs). destruct (settled_all t) as [(es & Hf & Hpe)|[(al & g & pre & e & H1 & H2 & H3 & H4)|(al & g & pre & H1 & _ & H2)]].
  - left. rewrite (parses_det _ _ _ Hl Hpe) in Hs. rewrite to_ritem_events in Hs. exists es, xs. auto.
  - right. pose proof (shows_parses _ _ _ H4 Hl) as Ev. symmetry in Ev. apply view_split in Ev as (pe & l' & -> & He). exists al, g, pre, e, pe. repeat (split; [assumption|]).
    rewrite map_app, to_ritem_events in Hs. cbn [map to_ritem] in Hs. destruct (error_split _ _ _ _ _ _ eq_refl Hx Hs) as (ys & a & h & b & E & Hh & Ha & Hy).
    eexists _, ys, a, h, b. split; [exact E|]. split; [exact Hh|]. split; [exact Ha|exact Hy].
  - exfalso. exact (plain_said _ _ Hp H1 H2).
Qed.
