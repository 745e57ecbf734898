(** * FormulaCore: texts in which nothing doubtful occurs. *)

From Coq Require Import Ascii String List NArith ZArith Bool Lia Arith.
From Verif Require Import Base Float32 Event Tables Prim PrimTable Lex Macros Primitives Spans Parser Api SimRun MacroRun CallFacts FormulaProps FormulaHole
  SpecLex SpecNum LexFacts LexMore LexNum SpecFormula FormulaLex FormulaNucleus4 FormulaCompose FormulaDerive
  PrimFacts SpecFault FormulaFault FormulaFirst SpecBeyond FormulaDecide FormulaDecide2.
Import ListNotations.
Open Scope N_scope.
Open Scope list_scope.

Lemma frac_delimiter_ends : forall s o r, frac_delimiter s o r -> ends r s.
Proof.
  intros s o r [w r0 Hw|s0 c ty r0 Hn Hd]; [|eapply delimiter_ends, Hd]. exists (w ++ [123; 125]). rewrite <- app_assoc. reflexivity.
Qed.
Lemma one_argument_ends : forall s r, one_argument s r -> ends r s.
Proof.
  intros s r [w g r0 Hw Hg|b c r0 Hb _ _ _ _|b cs t r0 Hb Hc]; [apply ends_group| |eapply control_ends_b, Hc]. eapply ends_trans; [apply ends_cons|apply ends_app].
Qed.
Lemma ends_cut : forall a b r s, ends (a ++ b :: r) s -> ends r s.
Proof. intros a b r s H. eapply ends_trans; [|exact H]. eapply ends_trans; [apply ends_cons|apply ends_app]. Qed.
Lemma ends_drop : forall a r s, ends (a ++ r) s -> ends r s.
Proof. intros a r s H. eapply ends_trans; [|exact H]. apply ends_app. Qed.

Ltac e_ctl := match goal with H : control _ ?t ?x |- ends _ (?b ++ ?t) => let E := fresh in pose proof (control_ends_b b _ _ _ H) as E; clear H end.
Ltac e_go := repeat match goal with
  | E : ends ?r ?s |- ends ?r ?s => exact E
  | E : ends (_ ++ _ :: _) _ |- _ => apply ends_cut in E
  | E : ends (?a ++ ?r) ?s |- ends ?r ?s => exact (ends_drop a r s E)
  end.

Lemma enclosed_ends : forall o c s g r, enclosed o c s g r -> ends r s.
Proof. intros o c s g r H. apply enclosed_text in H as ->. rewrite app_assoc. apply ends_app. Qed.
Lemma frac_style_ends : forall s sty r, frac_style s sty r -> ends r s.
Proof. intros s sty r [w y sty0 r0 Hw Hy|b c sty0 r0 Hb Hc]; [apply ends_group|eapply ends_trans; [apply ends_cons|apply ends_app]]. Qed.
Lemma placed_ends : forall l s p r, placed l s p r -> ends r s.
Proof. intros [[] o] s p r H; unfold placed in H; cbn in H; [eapply modifiers_end, H|destruct H as [_ ->]; apply ends_refl]. Qed.
Lemma row_space_ends : forall s d r, row_space s d r -> ends r s.
Proof. intros s d r [s0 H|w t d0 r0 Hw Hd]; [apply ends_refl|apply ends_group]. Qed.

Ltac e_facts := repeat match goal with
  | H : control _ ?t ?x |- context [?b ++ ?t] => let E := fresh in pose proof (control_ends_b b _ _ _ H) as E; clear H
  | H : delimiter _ _ _ _ |- _ => apply delimiter_ends in H
  | H : delimiter_opt _ _ _ |- _ => apply delimiter_opt_ends in H as [H _]
  | H : frac_delimiter _ _ _ |- _ => apply frac_delimiter_ends in H
  | H : frac_style _ _ _ |- _ => apply frac_style_ends in H
  | H : one_argument _ _ |- _ => apply one_argument_ends in H
  | H : env_args _ _ _ _ |- _ => apply env_args_ends in H
  | H : lines _ _ _ |- _ => apply lines_end in H
  | H : enclosed _ _ _ _ _ |- _ => apply enclosed_ends in H
  | H : placed _ _ _ _ |- _ => apply placed_ends in H
  | H : row_space _ _ _ |- _ => apply row_space_ends in H
  end;
  repeat match goal with
  | E : ends (_ ++ _ :: _) _ |- _ => apply ends_cut in E
  end.
Ltac chain := first [eassumption | apply ends_refl | apply ends_group | eapply ends_trans; [apply ends_cons|apply ends_app] |
  match goal with H : ends ?r _ |- ends ?r _ => eapply ends_trans; [exact H|]; clear H; chain end |
  match goal with H : ends (?a ++ ?r) _ |- ends ?r _ => eapply ends_trans; [apply (ends_app a r)|]; chain end |
  match goal with H : ends (?c :: ?r) _ |- ends ?r _ => eapply ends_trans; [apply (ends_cons c r)|]; chain end ].

Section Ends.
Context {KN : Known}.
Lemma meaning_ends :
  (forall h s es l r, nucleus h s es l r -> ends r s) /\ (forall s es, over s es -> True) /\
  (forall h ks s ess r, arguments h ks s ess r -> ends r s) /\ (forall p es s es' r, scripts p es s es' r -> ends r s) /\
  (forall s es r, element s es r -> ends r s) /\ (forall (al : option (N * N)) s es, formula al s es -> True).
Proof.
  apply meaning_all; intros; try exact I.
  all: try (e_facts; chain; fail).
  - eapply ends_trans; [apply ends_app|apply ends_app].
  - apply control_ends_b with (b := b) in H0. apply ends_cut, ends_cut in H0. eapply ends_trans; [eapply enclosed_ends, H4|]. eapply ends_trans; [exact (lines_end _ _ _ H3)|].
    eapply ends_trans; [eapply env_args_ends, H2|exact H0].
  - match goal with X : control _ _ _ |- _ => apply control_ends_b with (b := b) in X; eapply ends_trans; [|exact X] end. eapply (proj1 (spaced_ends _ _ _ ltac:(eassumption))).
  - match goal with X : control _ _ _ |- _ => apply control_ends_b with (b := b) in X; eapply ends_trans; [|exact X] end. eapply (proj1 (glue_ends _ _ _ _ _ ltac:(eassumption))).
  - match goal with X : control _ _ _ |- _ => apply control_ends_b with (b := b) in X; eapply ends_trans; [|exact X] end. match goal with X : code_text _ _ _ |- _ => destruct (code_shorter _ _ _ X) as (a & _ & ->); apply ends_app end.
  - apply control_ends_b with (b := b) in H0. apply delimited_text in H1. eapply ends_trans; [exact H5|]. eapply ends_trans; [|exact H0]. rewrite H1, app_assoc. apply ends_app.
  - eapply ends_trans; [exact H3|apply ends_app].
Qed.
End Ends.

(** ** Doubtful texts *)

Definition doub (s : str) : Prop := (exists x, contains x s /\ doubtful x) \/ exists x, part x s /\ doubtful_command x.

Lemma doub_ends : forall r s, doub r -> ends r s -> doub s.
Proof.
  intros r s [(x & (p & q & ->) & Hx)|(x & (p & q & -> & Hq) & Hx)] (a & ->); [left|right]; exists x.
  - split; [|exact Hx]. exists (a ++ p), q. rewrite <- app_assoc. reflexivity.
  - split; [|exact Hx]. exists (a ++ p), q. rewrite <- app_assoc. auto.
Qed.
Lemma doub_here : forall a x r, doubtful x -> doub (a ++ x ++ r).
Proof. intros a x r H. left. exists x. split; [exists a, r; reflexivity|exact H]. Qed.
Lemma doub_word : forall a x r, doubtful_command x -> not_next letter r -> doub (a ++ x ++ r).
Proof. intros a x r H Hr. right. exists x. split; [exists a, r; auto|exact H]. Qed.

(** The names in the lists consist of letters. *)
Definition wordy (cs : str) : bool := forallb is_alpha cs.
Lemma control_word : forall cs t r, control cs t r -> wordy cs = true -> exists w, t = 92 :: cs ++ w ++ r /\ white w /\ not_next letter (w ++ r).
Proof.
  intros cs t r (w & -> & Hw & _ & [(_ & _ & Hl)|(c & -> & Hc)]) Hn; [exists w; auto|].
  exfalso. cbn in Hn. rewrite andb_true_r in Hn. apply Hc, letter_alpha, Hn.
Qed.
Lemma others_wordy : forall cs, In cs other_commands -> wordy cs = true.
Proof. apply forallb_forall. vm_compute. reflexivity. Qed.
Lemma shy_wordy : forall cs, In cs shy_names -> wordy cs = true.
Proof. apply forallb_forall. vm_compute. reflexivity. Qed.
Lemma composite_wordy : forall cs, In cs composite_names -> wordy cs = true.
Proof. apply forallb_forall. vm_compute. reflexivity. Qed.
Lemma text_wordy : forall cs, takes_text cs -> wordy cs = true.
Proof. apply forallb_forall. vm_compute. reflexivity. Qed.

Lemma doub_control : forall b cs t r, control cs t r -> In cs other_commands -> doub (b ++ t).
Proof.
  intros b cs t r Hc H. apply control_word in Hc as (w & -> & _ & Hl); [|now apply others_wordy]. apply (doub_word b (92 :: cs) (w ++ r)); [apply DC_name, H|exact Hl].
Qed.
Lemma doub_option : forall b cs t w s, control cs t (w ++ 91 :: s) -> white w -> In cs newline_commands -> doub (b ++ t).
Proof.
  intros b cs t w s (w' & -> & Hw' & _) Hw H. left. exists (92 :: cs ++ (w' ++ w) ++ [91]). split; [|apply DF_space; [exact H|unfold white in *; rewrite forallb_app, Hw', Hw; reflexivity]].
  exists b, s. f_equal. cbn. f_equal. rewrite <- !app_assoc. reflexivity.
Qed.

Ltac name_in := apply is_in_true; vm_compute; reflexivity.

Ltac flat := repeat (first [rewrite <- app_assoc | progress cbn]); reflexivity.

Lemma white_app : forall a b, white a -> white b -> white (a ++ b).
Proof. intros a b Ha Hb. unfold white in *. rewrite forallb_app, Ha, Hb. reflexivity. Qed.

(** A text without brackets, backslashes and comment signs is balanced. *)
Lemma quiet_balanced : forall i, ~ In 91 i -> ~ In 92 i -> ~ In 93 i -> ~ In 37 i -> balanced 91 93 i.
Proof.
  induction i as [|x i IH]; intros H1 H2 H3 H4; [apply bal_nil|]. cbn [In] in *. apply bal_char; try (intros ->; auto; fail).
  apply IH; auto.
Qed.
Lemma first_in : forall (d : char) s, In d s -> exists x q, s = x ++ d :: q /\ ~ In d x.
Proof.
  intros d s. induction s as [|y s IH]; cbn [In]; intros H; [destruct H|]. destruct (N.eq_dec y d) as [->|Hne].
  - exists [], s. split; [reflexivity|intros []].
  - destruct H as [H|H]; [contradiction|]. destruct (IH H) as (x & q & -> & Hx). exists (y :: x), q. split; [reflexivity|]. intros [E|E]; [congruence|auto].
Qed.
Lemma open_comment : forall s, unclosed [91] [93] s -> In 37 s -> exists x q, s = x ++ 37 :: q /\ ~ In 37 x /\ (~ In 93 x \/ In 91 x \/ In 92 x).
Proof.
  intros s Hu Hp. apply first_in in Hp as (x & q & -> & Hx). exists x, q. split; [reflexivity|]. split; [exact Hx|].
  destruct (List.in_dec N.eq_dec 93 x) as [H1|H1]; [right|left; exact H1].
  destruct (List.in_dec N.eq_dec 91 x) as [H2|H2]; [left; exact H2|right]. destruct (List.in_dec N.eq_dec 92 x) as [H3|H3]; [exact H3|exfalso].
  apply first_in in H1 as (i & r & -> & Hi). apply Hu. exists i, (r ++ 37 :: q). rewrite <- app_assoc. cbn [app].
  apply (balanced_enclosed 91 93); try discriminate. apply quiet_balanced; [intros E; apply H2|intros E; apply H3|exact Hi|intros E; apply Hx]; apply in_or_app; left; exact E.
Qed.
Lemma doub_env : forall a name s, beyond_env name s -> doub (a ++ 123 :: name ++ 125 :: s).
Proof.
  intros a name s H. left. destruct H as [name w s Hin Hw Hu Hp|name w cs cols s Hin Hw Hc Hn|name w c s Hin Hw Hc|name w c x r Hin Hw Hx Hc Hn].
  - apply open_comment in Hp as (x & q & -> & Hx & Hx'); [|exact Hu]. exists (123 :: name ++ 125 :: w ++ 91 :: x ++ [37]). split; [exists a, q; f_equal; flat|]. apply DF_matrix; assumption.
  - exists (123 :: name ++ 125 :: w ++ 123 :: cs). split; [exists a, s; f_equal; flat|]. eapply DF_columns; eassumption.
  - exists (123 :: name ++ 125 :: w ++ [123; c]). split; [exists a, s; f_equal; flat|]. apply DF_sign; assumption.
  - exists (123 :: name ++ 125 :: w ++ 123 :: (c :: x) ++ [125]). split; [exists a, r; f_equal; flat|]. apply DF_number; assumption.
Qed.
Lemma doub_open : forall b cs t w s, control cs t (w ++ 91 :: s) -> white w -> In cs (lit "sqrt" :: map fst xarrows) -> unclosed [91] [93] s -> In 37 s -> doub (b ++ t).
Proof.
  intros b cs t w s (w' & -> & Hw' & _) Hw H Hu Hp. apply open_comment in Hp as (x & q & -> & Hx & Hx'); [|exact Hu].
  left. exists (92 :: cs ++ (w' ++ w) ++ 91 :: x ++ [37]). split; [exists b, q; f_equal; flat|apply DF_option; try assumption; now apply white_app].
Qed.

Lemma switch_shy : forall cs, In cs (lit "color" :: map fst switches) -> In cs shy_names.
Proof. intros cs H. apply in_or_app. do 5 right. exact H. Qed.
Lemma limits_shy : forall cs c, In (cs, c) commands -> c_limits c <> no_limits -> In cs shy_names.
Proof.
  intros cs c H Hl. apply in_or_app. left. apply (in_map fst _ (cs, c)). apply filter_In. split; [exact H|]. cbn [snd].
  destruct (c_limits c) as [[] [p|]]; try reflexivity. exfalso. apply Hl. reflexivity.
Qed.

(** The text starts with a command of the list. *)
Definition begins_with (l : list str) (s : str) : Prop := exists b cs r, blank b /\ s = b ++ 92 :: cs ++ r /\ In cs l /\ not_next letter r.
Notation shy := (begins_with shy_names).

Lemma begins_control : forall l b cs t r, blank b -> control cs t r -> In cs l -> wordy cs = true -> begins_with l (b ++ t).
Proof. intros l b cs t r Hb Hc H Hw. apply control_word in Hc as (w & -> & _ & Hl); [|exact Hw]. exists b, cs, (w ++ r). auto. Qed.
Lemma begins_shy : forall b cs t r, blank b -> control cs t r -> In cs shy_names -> begins_with shy_names (b ++ t).
Proof. intros b cs t r Hb Hc H. eapply begins_control; try eassumption. now apply shy_wordy. Qed.
Lemma begins_composite : forall b cs t r, blank b -> control cs t r -> In cs composite_names -> begins_with composite_names (b ++ t).
Proof. intros b cs t r Hb Hc H. eapply begins_control; try eassumption. now apply composite_wordy. Qed.

Lemma white_blank : forall w b, white w -> blank b -> blank (w ++ b).
Proof. intros w b Hw Hb. induction w as [|c w IH]; [exact Hb|]. unfold white in Hw. cbn in Hw. apply andb_prop in Hw as [H1 H2]. apply blank_ws; [exact H1|apply IH, H2]. Qed.

(** An argument that starts so is doubtful. *)
Lemma shy_there : forall a x w s, opening x -> white w -> shy s -> doub (a ++ x ++ w ++ s).
Proof.
  intros a x w s Hx Hw (b & cs & r & Hb & -> & Hc & Hr). right. exists (x ++ (w ++ b) ++ 92 :: cs). split; [|apply DC_shy; [exact Hx|apply white_blank; assumption|exact Hc]].
  exists a, r. rewrite <- !app_assoc. auto.
Qed.
Lemma shy_after : forall b cs t s, opening (92 :: cs) -> control cs t s -> shy s -> doub (b ++ t).
Proof. intros b cs t s Ho (w & -> & Hw & _) Hs. apply (shy_there b (92 :: cs) w s Ho Hw Hs). Qed.

Lemma limits_named : forall h s es l r, @nucleus anything h s es l r -> l <> no_limits -> doub s \/ shy s.
Proof.
  intros h s es l r H Hl. destruct H; try (exfalso; apply Hl; reflexivity).
  - right. eapply begins_shy; [eassumption..|]. eapply limits_shy; eassumption.
  - right. eapply begins_shy; [eassumption..|]. name_in.
  - right. eapply begins_shy; [eassumption..|]. name_in.
  - right. eapply begins_shy; [eassumption..|]. name_in.
  - first [right; eapply begins_shy; [eassumption..|]; name_in|left; eapply doub_control; [eassumption|]; name_in].
  - right. eapply begins_shy; [eassumption..|]. name_in.
  - right. eapply begins_shy; [eassumption..|]. name_in.
Qed.

Lemma composite_command : forall cs c, In (cs, c) commands -> c_args c <> [] -> In cs composite_names.
Proof.
  intros cs c H Ha. apply in_or_app. left. apply (in_map fst _ (cs, c)). apply filter_In. split; [exact H|]. cbn [snd]. destruct (c_args c); [contradiction|reflexivity].
Qed.
Lemma composite_other : forall cs, In cs (lit "sqrt" :: lit "left" :: lit "middle" :: lit "begin" :: lit "textcolor" :: map fst xarrows ++ map fst text_commands ++ map fst sizes ++
  map fst classes ++ [lit "colorbox"; lit "fcolorbox"; lit "substack"; lit "kern"; lit "mkern"; lit "hskip"; lit "mskip"; lit "hspace"; lit "char"; lit "Space"; lit "genfrac"]) -> In cs composite_names.
Proof. intros cs H. apply in_or_app. right. exact H. Qed.

Lemma control_item : forall b cs t r, blank b -> control cs t r -> exists i w, white w /\ b ++ t = i ++ w ++ r /\ item i.
Proof.
  intros b cs t r Hb (w & -> & Hw & _ & [(Hn & Hl & _)|(c & -> & Hc)]).
  - exists (b ++ 92 :: cs), w. split; [exact Hw|]. split; [rewrite <- app_assoc; reflexivity|now apply T_letters].
  - exists (b ++ [92; c]), w. split; [exact Hw|]. split; [rewrite <- app_assoc; reflexivity|now apply T_sign].
Qed.

Lemma special_char : forall c, special c = false -> is_ws c = false /\ c <> 37 /\ c <> 92 /\ c <> 123.
Proof.
  intros c H. unfold special in H. apply orb_false_iff in H as [H Hw]. apply orb_false_iff in H as [H _]. split; [exact Hw|]. repeat split; intros ->; discriminate.
Qed.

(** An argument is an item, unless it is composite or doubtful. *)
Lemma argument_item : forall s es l r, @nucleus anything true s es l r ->
  (exists i w, white w /\ s = i ++ w ++ r /\ item i) \/ doub s \/ shy s \/ begins_with composite_names s.
Proof.
  intros s es l r H. remember true as h eqn:Eh. destruct H; subst; try discriminate.
  all: try (right; left; eapply doub_control; [eassumption|name_in]; fail).
  all: try (right; right; left; eapply begins_shy; [eassumption..|name_in]; fail).
  all: try (right; right; right; eapply begins_composite; [eassumption..|name_in]; fail).
  all: try (match goal with X : In (?cs, ?k) classes |- _ => right; right; right; eapply begins_composite; [eassumption..|]; apply composite_other; do 5 right; do 3 (apply in_or_app; right); apply in_or_app; left; exact (in_map fst _ (cs, k) X) end).
  all: try (left; eapply control_item; eassumption).
  - left. exists (b ++ [c]), []. split; [reflexivity|]. split; [rewrite <- app_assoc; reflexivity|]. apply special_char in H0 as (A1 & A2 & A3 & A4). now apply T_char.
  - left. exists (b ++ [c]), []. split; [reflexivity|]. split; [rewrite <- app_assoc; reflexivity|]. pose proof (digit_not_ws _ H0). unfold digit in H0. apply T_char; [assumption|assumption|lia..].
  - left. exists (b ++ 123 :: g ++ [125]), []. split; [reflexivity|]. split; [rewrite <- !app_assoc; cbn; rewrite <- app_assoc; reflexivity|]. now apply T_group.
  - destruct (c_args c) as [|k ks] eqn:Ea.
    + match goal with X : arguments _ [] _ _ _ |- _ => inversion X; subst end. left. eapply control_item; eassumption.
    + right. right. right. eapply begins_composite; [eassumption..|]. eapply composite_command; [eassumption|congruence].
  - right. right. right. eapply begins_composite; [eassumption..|]. apply composite_other. do 5 right. apply in_or_app. left. apply (in_map fst _ (cs, c)). assumption.
  - right. right. right. eapply begins_composite; [eassumption..|]. apply composite_other. do 5 right. apply in_or_app. left. apply (in_map fst _ (cs, c)). assumption.
  - right. right. right. eapply begins_composite; [eassumption..|]. apply composite_other. do 5 right. apply in_or_app. right. apply in_or_app. left. apply (in_map fst _ (cs, f)). assumption.
  - right. right. right. eapply begins_composite; [eassumption..|]. apply composite_other. do 5 right. apply in_or_app. right. apply in_or_app. right. apply in_or_app. left. apply (in_map fst _ (cs, z)). assumption.
  - right. right. right. eapply begins_composite; [eassumption..|]. match goal with X : In (cs, _) spaces |- _ => repeat (destruct X as [X|X]; [first [discriminate X|injection X; intros; subst; name_in]|]); destruct X end.
  - right. right. right. eapply begins_composite; [eassumption..|]. match goal with X : In (cs, _) spaces |- _ => repeat (destruct X as [X|X]; [first [discriminate X|injection X; intros; subst; name_in]|]); destruct X end.
  - right. right. right. eapply begins_composite; [eassumption..|]. match goal with X : In (cs, _) spaces |- _ => repeat (destruct X as [X|X]; [first [discriminate X|injection X; intros; subst; name_in]|]); destruct X end.
  - right. right. right. eapply begins_composite; [eassumption..|]. match goal with X : In (cs, _) spaces |- _ => repeat (destruct X as [X|X]; [first [discriminate X|injection X; intros; subst; name_in]|]); destruct X end.
Qed.

Scheme beyond_mut := Minimality for beyond Sort Prop
  with beyond_argument_mut := Minimality for beyond_argument Sort Prop.
Combined Scheme beyond_both from beyond_mut, beyond_argument_mut.

(** What a font may not be applied to. *)
Definition unfit (s : str) : Prop :=
  (exists b c r, blank b /\ s = b ++ c :: r /\ (c = 94 \/ c = 95 \/ c = 38)) \/ (exists b cs r, blank b /\ s = b ++ 92 :: cs ++ r /\ In cs newline_commands).

Lemma unfit_font : forall b cs t s, control cs t s -> In cs (map fst fonts) -> unfit s -> doub (b ++ t).
Proof.
  intros b cs t s (w & -> & Hw & _) Hf [(b' & c & r & Hb & -> & Hc)|(b' & cs' & r & Hb & -> & Hc)].
  - left. exists (92 :: cs ++ (w ++ b') ++ [c]). split; [|apply DF_font; [exact Hf|apply white_blank; assumption|exact Hc]].
    exists b, r. f_equal. cbn. f_equal. rewrite <- !app_assoc. reflexivity.
  - left. exists (92 :: cs ++ (w ++ b') ++ 92 :: cs'). split; [|apply DF_font_row; [exact Hf|apply white_blank; assumption|exact Hc]].
    exists b, r. f_equal. cbn. f_equal. rewrite <- !app_assoc. reflexivity.
Qed.

Definition font_shape (p : str * command) : bool :=
  match c_args (snd p) with [] | [Whole] | [Whole; Whole] => true | [Inside] => is_in (fst p) (map fst fonts) | _ => false end.
Lemma font_shapes : forallb font_shape commands = true.
Proof. vm_compute. reflexivity. Qed.

(** The second argument is doubtful, or the first composite. *)
Definition shy_second (s : str) : Prop := exists i w s', white w /\ s = i ++ w ++ s' /\ item i /\ shy s'.

Lemma item_white : forall w i, white w -> item i -> item (w ++ i).
Proof.
  intros w i Hw Hi. destruct Hi; rewrite app_assoc; [apply T_group|apply T_char|apply T_letters|apply T_sign]; try assumption; now apply white_blank.
Qed.

Lemma not_start_open : forall b c r, ~ starts 123 (b ++ c :: r) -> c <> 123 \/ ~ white b.
Proof. intros b c r H. destruct (N.eq_dec c 123) as [->|Hc]; [right|left; exact Hc]. intros Hw. apply H. exists b, r. auto. Qed.

Lemma white_balanced : forall w x, white w -> balanced 123 125 x -> balanced 123 125 (w ++ x).
Proof.
  induction w as [|c w IH]; intros x Hw Hx; [exact Hx|]. unfold white in Hw. cbn [forallb] in Hw. apply andb_prop in Hw as [H1 H2].
  cbn [app]. apply bal_char; try (intros ->; discriminate H1). apply IH; assumption.
Qed.
Lemma doubtful_length_white : forall cs w x, white w -> doubtful_length cs x -> doubtful_length cs (w ++ x).
Proof.
  intros cs w x Hw H.
  assert (Hs : Forall sign w) by (apply Forall_forall; intros c Hc; right; right; exact (proj1 (forallb_forall _ _) Hw c Hc)).
  assert (Hd : forall x d, dimension_text x d -> exists d', dimension_text (w ++ x) d').
  { intros y d Hy. apply length_b_sound. rewrite length_white by exact Hw. eapply length_b_complete, Hy. }
  destruct H as [cs x Hin [x0 Hx Hn|x0 d c Hx H1 H2]|cs q x Hin Hq Hx|x d p m z [x0 d0 s s1 p0 s2 m0 r Hx Hsp Hp Hm] Hb Hz].
  - apply DL_length; [exact Hin|]. apply BL_number.
    + destruct Hx as [sg ds w' u d|sg ds p fs w' u d]; rewrite (app_assoc w sg); [eapply SL_integer|eapply SL_fraction]; try eassumption; apply Forall_app; auto.
    + intros d X. apply length_b_complete in X. rewrite length_white in X by exact Hw. apply length_b_sound in X as [d' X]. exact (Hn d' X).
  - destruct (Hd _ _ Hx) as [d' Hd']. apply DL_length; [exact Hin|]. rewrite app_assoc. eapply BL_wide; eassumption.
  - rewrite app_assoc. apply DL_stretch; [exact Hin| |exact Hx]. destruct Hq as [y d w' Hy Hw'|y d w' Hy Hw'|y d w' y' d' w'' Hy Hw' Hy' Hw'']; destruct (Hd _ _ Hy) as [d1 Hd1]; rewrite app_assoc;
      [eapply GS_plus|eapply GS_minus|eapply GS_both]; eassumption.
  - destruct (Hd _ _ Hx) as [d' Hd']. rewrite app_assoc. eapply DL_more; [rewrite app_assoc; eapply Glue_text; eassumption| |exact Hz].
    apply white_balanced; assumption.
Qed.

Lemma lengths_wordy : forall cs x, doubtful_length cs x -> wordy cs = true.
Proof.
  assert (H : forall cs, In cs (lit "hspace" :: map fst spaces) -> wordy cs = true) by (apply forallb_forall; vm_compute; reflexivity).
  intros cs x [cs' y Hin _|cs' q y Hin _ _|y d p m z _ _ _]; [apply H; exact Hin| |reflexivity]. destruct Hin as [<-|[<-|[<-|[]]]]; reflexivity.
Qed.

Lemma not_next_front : forall (P : char -> Prop) a b, not_next P (a ++ b) -> not_next P a.
Proof. intros P [|c a] b H; [exact I|exact H]. Qed.

Lemma doub_length : forall b cs t o x r, control cs t (o ++ x ++ r) -> lead cs o -> doubtful_length cs x -> doub (b ++ t).
Proof.
  intros b cs t o x r Hc Hl Hx. apply control_word in Hc; [|eapply lengths_wordy, Hx]. destruct Hc as (w & -> & Hw & Hn). left. destruct Hl as [[-> Hcs]|(w' & Hw' & ->)].
  - exists (92 :: cs ++ [] ++ w ++ x). split; [exists b, r; f_equal; flat|]. apply DF_length; [left; auto|apply doubtful_length_white; assumption|].
    cbn [app] in Hn |- *. rewrite app_assoc in Hn. exact (not_next_front _ _ _ Hn).
  - exists (92 :: cs ++ ((w ++ w') ++ [123]) ++ x). split; [exists b, r; f_equal; flat|]. apply DF_length; [right; exists (w ++ w'); split; [now apply white_app|reflexivity]|exact Hx|].
    apply (not_next_front _ _ r). rewrite <- !app_assoc in *. exact Hn.
Qed.

Lemma doub_code : forall b t x r, control (lit "char") t (x ++ r) -> doubtful_code x -> doub (b ++ t).
Proof.
  intros b t x r Hc Hx. apply control_word in Hc; [|reflexivity]. destruct Hc as (w & -> & Hw & _). left. exists (lit "\char" ++ w ++ x).
  split; [exists b, r; f_equal; flat|now apply DF_code].
Qed.

(** *** Several arguments *)

Lemma one_white : forall w s r, white w -> one_argument s r -> one_argument (w ++ s) r.
Proof.
  intros w s r Hw [w' g r0 Hw' Hg|b c r0 Hb H1 H2 H3 H4|b cs t r0 Hb Hc]; rewrite app_assoc.
  - apply OA_group; [now apply white_app|exact Hg].
  - apply OA_char; try assumption; [now apply white_blank|]. destruct H4 as [H4|H4]; [left; exact H4|right]. intros X. apply H4. unfold white in *. rewrite forallb_app in X. now apply andb_prop in X as [_ X].
  - eapply OA_control; [now apply white_blank|exact Hc].
Qed.
Lemma next_same : forall (P : char -> Prop) x r, x <> [] -> (not_next P (x ++ r) <-> not_next P x).
Proof. intros P [|c x] r H; [contradiction|]. reflexivity. Qed.
Lemma control_cut : forall cs t x r, control cs t (x ++ r) -> x <> [] -> exists t0, t = t0 ++ r /\ control cs t0 x.
Proof.
  intros cs t x r (w & -> & Hw & Hn & Hc) Hx. exists (92 :: cs ++ w ++ x). split; [cbn [app]; rewrite <- !app_assoc; reflexivity|]. exists w. split; [reflexivity|]. split; [exact Hw|].
  split; [exact (proj1 (next_same _ x r Hx) Hn)|].
  destruct Hc as [(H1 & H2 & H3)|H3]; [left; split; [exact H1|]; split; [exact H2|]|right; exact H3].
  rewrite app_assoc in H3. apply next_same in H3; [exact H3|]. destruct w; [exact Hx|discriminate].
Qed.
Lemma control_app : forall cs t r q, control cs t r -> r <> [] -> control cs (t ++ q) (r ++ q).
Proof.
  intros cs t r q (w & -> & Hw & Hn & Hc) Hx. exists w. split; [cbn [app]; rewrite <- !app_assoc; reflexivity|]. split; [exact Hw|]. split; [apply (next_same _ r q Hx), Hn|].
  destruct Hc as [(H1 & H2 & H3)|H3]; [left; split; [exact H1|]; split; [exact H2|]|right; exact H3].
  rewrite app_assoc. apply next_same; [|exact H3]. destruct w; [exact Hx|discriminate].
Qed.
Lemma one_cut : forall s r' x r, one_argument s r' -> r' = x ++ r -> x <> [] -> exists s0, s = s0 ++ r /\ one_argument s0 x.
Proof.
  intros s r' x r [w g r0 Hw Hg|b c r0 Hb H1 H2 H3 H4|b cs t r0 Hb Hc] -> Hx.
  - exists (w ++ 123 :: g ++ 125 :: x). split; [flat|now apply OA_group].
  - exists (b ++ c :: x). split; [flat|now apply OA_char].
  - apply control_cut in Hc as (t0 & -> & Hc); [|exact Hx]. exists (b ++ t0). split; [rewrite <- app_assoc; reflexivity|eapply OA_control; eassumption].
Qed.
Lemma one_app : forall s r q, one_argument s r -> r <> [] -> one_argument (s ++ q) (r ++ q).
Proof.
  intros s r q [w g r0 Hw Hg|b c r0 Hb H1 H2 H3 H4|b cs t r0 Hb Hc] Hx.
  - replace ((w ++ 123 :: g ++ 125 :: r0) ++ q) with (w ++ 123 :: g ++ 125 :: r0 ++ q) by (repeat (rewrite <- ?app_assoc; cbn [app]); reflexivity). now apply OA_group.
  - replace ((b ++ c :: r0) ++ q) with (b ++ c :: r0 ++ q) by (repeat (rewrite <- ?app_assoc; cbn [app]); reflexivity). now apply OA_char.
  - rewrite <- app_assoc. eapply OA_control; [exact Hb|exact (control_app _ _ _ q Hc Hx)].
Qed.
Lemma one_not_nil : forall s r, one_argument s r -> s <> [].
Proof.
  intros s r [w g r0 _ _|b c r0 _ _ _ _ _|b cs t r0 _ (w & -> & _)] E; apply app_eq_nil in E as [_ E]; discriminate.
Qed.
Lemma after_not_nil : forall n s r, after_arguments n s r -> r <> [] -> s <> [].
Proof. intros n s r [s0|n0 s0 s1 r0 H _] Hr; [exact Hr|eapply one_not_nil, H]. Qed.
Lemma after_cut : forall n s r' x r, after_arguments n s r' -> r' = x ++ r -> x <> [] -> exists s0, s = s0 ++ r /\ after_arguments n s0 x.
Proof.
  intros n s r' x r H. induction H as [s|n s s1 r' H1 H2 IH]; intros -> Hx; [exists x; split; [reflexivity|constructor]|].
  destruct (IH eq_refl Hx) as (s10 & -> & H3). destruct (one_cut _ _ s10 r H1 eq_refl) as (s0 & -> & H4); [eapply after_not_nil; eassumption|]. exists s0. split; [reflexivity|]. eapply AA_one; eassumption.
Qed.
Lemma after_app : forall n s r q, after_arguments n s r -> r <> [] -> after_arguments n (s ++ q) (r ++ q).
Proof.
  intros n s r q H. induction H as [s|n s s1 r H1 H2 IH]; intros Hr; [constructor|]. eapply AA_one; [apply one_app; [exact H1|]|apply IH, Hr]. eapply after_not_nil; eassumption.
Qed.
Lemma after_white : forall n w s r, white w -> after_arguments (S n) s r -> after_arguments (S n) (w ++ s) r.
Proof. intros n w s r Hw H. inversion H as [|n0 s0 s1 r0 H1 H2]; subst. eapply AA_one; [apply one_white; eassumption|exact H2]. Qed.
Lemma after_trans : forall n m s r r', after_arguments n s r -> after_arguments m r r' -> after_arguments (n + m) s r'.
Proof. intros n m s r r' H. induction H as [s|n s s1 r H1 H2 IH]; intros H'; [exact H'|]. eapply AA_one; [exact H1|apply IH, H']. Qed.

Lemma frac_delimiter_one : forall s o r, frac_delimiter s o r -> one_argument s r.
Proof.
  assert (Hd : forall c ty, In (c, ty) char_delims -> is_ws c = false /\ c <> 37 /\ c <> 92 /\ c <> 123).
  { intros c ty H. repeat (destruct H as [H|H]; [injection H as <- _; repeat split; (reflexivity || discriminate)|]). destruct H. }
  intros s o r [w r0 Hw|s0 c ty r0 Hn [b c0 ty0 r1 Hb Hi|b cs t c0 ty0 r1 Hb Hc _]].
  - apply (OA_group w [] r0 Hw). constructor.
  - apply Hd in Hi as (A1 & A2 & A3 & A4). apply OA_char; auto.
  - eapply OA_control; eassumption.
Qed.
Lemma frac_style_one : forall s o r, frac_style s o r -> one_argument s r.
Proof.
  intros s sty r [w y sty0 r0 Hw Hy|b c sty0 r0 Hb Hc].
  - apply OA_group; [exact Hw|]. apply plain_balanced; repeat destruct Hy as [Hy|Hy]; try contradiction; injection Hy as <- _; repeat constructor; discriminate.
  - assert (Hx : is_ws c = false /\ c <> 37 /\ c <> 92 /\ c <> 123) by (repeat destruct Hc as [Hc|Hc]; try contradiction; try discriminate Hc; injection Hc as <- <-; repeat split; discriminate).
    destruct Hx as (A1 & A2 & A3 & A4). apply OA_char; auto.
Qed.
Lemma frac_head : forall s1 o s2 c w x bar s2' sty s3, frac_delimiter s1 o s2 -> frac_delimiter s2 c (w ++ 123 :: x ++ 125 :: s2') -> white w -> frac_bar x bar -> frac_style s2' sty s3 ->
  after_arguments 4 s1 s3.
Proof.
  intros s1 o s2 c w x bar s2' sty s3 H1 H2 Hw Hb H3. eapply AA_one; [eapply frac_delimiter_one, H1|]. eapply AA_one; [eapply frac_delimiter_one, H2|].
  eapply AA_one; [apply OA_group; [exact Hw|eapply frac_bar_braces, Hb]|]. eapply AA_one; [eapply frac_style_one, H3|constructor].
Qed.
Lemma lengths_after : forall n s r, lengths n s r -> after_arguments n s r.
Proof. intros n s r H. induction H as [s|n w x d s r Hw Hd _ IH]; [constructor|]. eapply AA_one; [apply OA_group; [exact Hw|exact (dimension_text_braces _ _ Hd)]|exact IH]. Qed.

(** A doubtful command after some arguments. *)
Lemma doub_later : forall n b cs t s x r, wordy cs = true -> control cs t s -> after_arguments (S n) s (x ++ r) -> x <> [] -> not_next letter r ->
  (forall s0, after_arguments (S n) s0 x -> not_next letter s0 -> doubtful_command (92 :: cs ++ s0)) -> doub (b ++ t).
Proof.
  intros n b cs t s x r Hcs Hc Ha Hx Hr Hd. apply control_word in Hc as (w & -> & Hw & Hl); [|exact Hcs].
  destruct (after_cut _ _ _ x r Ha eq_refl Hx) as (s0 & -> & H0). right. exists (92 :: cs ++ w ++ s0). split.
  - exists b, r. split; [f_equal; flat|exact Hr].
  - apply Hd; [now apply after_white|]. rewrite app_assoc in Hl. exact (not_next_front _ _ _ Hl).
Qed.
Lemma doub_part : forall n b cs t s w x r, wordy cs = true -> control cs t s -> after_arguments n s (w ++ 123 :: x ++ r) -> white w ->
  (forall s0 w0, after_arguments n s0 (w0 ++ 123 :: x) -> white w0 -> not_next letter s0 -> doubtful (92 :: cs ++ s0)) -> doub (b ++ t).
Proof.
  intros n b cs t s w x r Hcs Hc Ha Hw Hd. apply control_word in Hc as (w' & -> & Hw' & Hl); [|exact Hcs].
  destruct (after_cut _ _ _ (w ++ 123 :: x) r Ha) as (s0 & -> & H0); [flat|destruct w; discriminate|]. left. exists (92 :: cs ++ w' ++ s0).
  rewrite app_assoc in Hl. apply not_next_front in Hl. split; [exists b, r; f_equal; flat|]. destruct n as [|n].
  - inversion H0; subst. apply (Hd _ (w' ++ w)); [rewrite <- app_assoc; constructor|now apply white_app|exact Hl].
  - apply (Hd _ w); [now apply after_white|exact Hw|exact Hl].
Qed.

Lemma after_ends : forall n s r, after_arguments n s r -> ends r s.
Proof. intros n s r H. induction H as [s|n s s1 r H1 H2 IH]; [apply ends_refl|]. eapply ends_trans; [exact IH|]. apply one_argument_ends, H1. Qed.
Lemma shy_not_nil : forall cs, In cs shy_names -> cs <> [].
Proof.
  assert (H : forallb (fun cs => negb (is_nil cs)) shy_names = true) by (vm_compute; reflexivity).
  intros cs Hi ->. pose proof (proj1 (forallb_forall _ _) H _ Hi) as X. discriminate X.
Qed.
Lemma control_here : forall cs r, wordy cs = true -> cs <> [] -> not_next letter r -> exists r', control cs (92 :: cs ++ r) r'.
Proof.
  intros cs r Hw Hn Hr. destruct (white_or r) as [Hwr|(w & c & r' & Hwr & Hc & ->)].
  - exists [], r. split; [rewrite app_nil_r; reflexivity|]. split; [exact Hwr|]. split; [exact I|]. left. split; [exact Hn|]. split; [|rewrite app_nil_r; exact Hr].
    apply Forall_forall. intros x Hx. apply letter_alpha. exact (proj1 (forallb_forall _ _) Hw x Hx).
  - exists (c :: r'), w. split; [reflexivity|]. split; [exact Hwr|]. split; [cbn; congruence|]. left. split; [exact Hn|]. split; [|exact Hr].
    apply Forall_forall. intros x Hx. apply letter_alpha. exact (proj1 (forallb_forall _ _) Hw x Hx).
Qed.

Lemma base_shy : forall cs, In cs shy_names -> In cs shy_bases \/ exists c, In (cs, c) commands /\ c_limits c <> no_limits /\ c_args c = [].
Proof.
  intros cs H. apply in_app_or in H as [H|H]; [|left; apply in_or_app; right; exact H]. apply in_map_iff in H as ((cs' & c) & <- & H). apply filter_In in H as [H1 H2]. cbn [fst snd] in *.
  destruct (c_args c) as [|k ks] eqn:Ea.
  - right. exists c. split; [exact H1|]. split; [|exact Ea]. intros E. rewrite E in H2. discriminate H2.
  - left. apply in_or_app. left. apply (in_map fst _ (cs', c)). apply filter_In. split; [exact H1|]. cbn [snd]. rewrite Ea. destruct (c_limits c) as [[] []]; first [reflexivity|discriminate H2].
Qed.

Lemma beyond_doubtful : (forall h s, beyond h s -> doub s \/ h = true /\ shy s) /\
  (forall h ks s, beyond_argument h ks s -> ks = [Whole] \/ ks = [Whole; Whole] \/ ks = [Inside] ->
    doub s \/ shy s \/ ks = [Inside] /\ unfit s \/ ks = [Whole; Whole] /\ (shy_second s \/ begins_with composite_names s)).
Proof.
  apply beyond_both; intros.
  - left. eapply doub_control; [eassumption|assumption].
  - left. apply control_ends_b with (b := b) in H0. eapply doub_ends; [|exact H0]. apply doub_env. assumption.
  - left. eapply doub_length; eassumption.
  - left. eapply doub_code; eassumption.
  - right. split; [reflexivity|]. eapply begins_shy; [eassumption..|]. eapply limits_shy; eassumption.
  - right. split; [reflexivity|]. eapply begins_shy; [eassumption..|]. match goal with X : In _ [_; _; _] |- _ => destruct X as [<-|[<-|[<-|[]]]]; name_in end.
  - right. split; [reflexivity|]. eapply begins_shy; [eassumption..|]. apply switch_shy. assumption.
  - left. match goal with X : control _ _ _ |- _ => destruct X as (w' & -> & Hw' & _) end.
    left. exists (92 :: cs ++ (w' ++ w) ++ 123 :: x ++ [125]). split; [|apply DF_colour; try assumption; unfold white in *; rewrite forallb_app; now apply andb_true_intro].
    exists b, r. f_equal. cbn. f_equal. rewrite <- !app_assoc. cbn. rewrite <- app_assoc. reflexivity.
  - left. left. match goal with X : control _ _ _ |- _ => destruct X as (wc & -> & Hwc & _) end.
    exists (lit "\fcolorbox" ++ (wc ++ w) ++ 123 :: x ++ 125 :: w' ++ 123 :: x' ++ [125]). split; [|apply DF_frame; try assumption; now apply white_app].
    exists b, r. f_equal. flat.
  - left. left. match goal with X : control _ _ _ |- _ => destruct X as (wc & -> & Hwc & _) end.
    exists ((lit "\colorbox" ++ (wc ++ w) ++ 123 :: x ++ [125]) ++ b' ++ [c]). split.
    + exists b, r. f_equal. flat.
    + apply DF_box; try assumption; [apply BX_box; [now apply white_app|assumption]|]. eapply not_start_open. eassumption.
  - left. left. match goal with X : control _ _ _ |- _ => destruct X as (wc & -> & Hwc & _) end.
    exists ((lit "\fcolorbox" ++ (wc ++ w) ++ 123 :: x ++ 125 :: w' ++ 123 :: x' ++ [125]) ++ b' ++ [c]). split.
    + exists b, r. f_equal. flat.
    + apply DF_box; try assumption; [apply BX_frame; try assumption; now apply white_app|]. eapply not_start_open. eassumption.
  - left. match goal with X : control _ _ _ |- _ => apply control_word in X as (w' & -> & Hw' & Hl); [|now apply text_wordy] end.
    left. exists (92 :: cs ++ (w' ++ b') ++ [c]). split; [exists b, r; f_equal; cbn; f_equal; rewrite <- !app_assoc; reflexivity|].
    apply DF_text; try assumption; [now apply white_blank| |rewrite app_assoc in Hl; destruct (w' ++ b'); exact Hl]. destruct (N.eq_dec c 123) as [->|Hc]; [right|left; exact Hc]. intros Hw.
    match goal with X : ~ starts 123 _ |- _ => apply X end. exists b', r. split; [|reflexivity]. unfold white in Hw. rewrite forallb_app in Hw. now apply andb_prop in Hw as [_ Hw].
  - left. eapply doub_open; eassumption.
  - left. pose proof (proj1 (forallb_forall _ _) font_shapes _ H1) as Hsh. unfold font_shape in Hsh. cbn [fst snd] in Hsh.
    assert (Hk : c_args c = [Whole] \/ c_args c = [Whole; Whole] \/ c_args c = [Inside]).
    { destruct (c_args c) as [|[] [|[] [|]]]; try discriminate; auto. inversion H2. }
    assert (Hne : c_args c <> []) by (intros E; rewrite E in Hk; destruct Hk as [Hk|[Hk|Hk]]; discriminate).
    destruct (H3 Hk) as [Hd|[Hs|[[E Hu]|[E [Hs|Hs]]]]].
    + eapply doub_ends; [exact Hd|]. eapply control_ends_b; eassumption.
    + eapply shy_after; [eapply Q_first; eassumption|eassumption|exact Hs].
    + rewrite E in Hsh. eapply unfit_font; [eassumption|apply is_in_true, Hsh|exact Hu].
    + destruct Hs as (i & w & s' & Hw & -> & Hi & Hs). destruct H0 as (w' & -> & Hw' & _).
      replace (b ++ 92 :: cs ++ w' ++ i ++ w ++ s') with (b ++ (92 :: cs ++ (w' ++ i)) ++ w ++ s') by (f_equal; cbn; f_equal; rewrite <- !app_assoc; reflexivity).
      apply shy_there; [|exact Hw|exact Hs]. eapply Q_second; [eassumption..|]. now apply item_white.
    + destruct Hs as (b' & cs' & r & Hb' & -> & Hc' & Hr). destruct H0 as (w' & -> & Hw' & _).
      right. exists (92 :: cs ++ (w' ++ b') ++ 92 :: cs'). split; [exists b, r; split; [f_equal; cbn; f_equal; rewrite <- !app_assoc; reflexivity|exact Hr]|].
      eapply DC_composite; [eassumption..| |exact Hc']. now apply white_blank.
  - left. match goal with Z : doub s \/ _ |- _ => destruct Z as [Z|[_ Z]]; rename Z into X end; [eapply doub_ends; [eassumption|]; eapply control_ends_b; eassumption|].
    eapply shy_after; [apply Q_sqrt; eassumption|eassumption|exact X].
  - left. match goal with Z : doub s \/ _ |- _ => destruct Z as [Z|[_ Z]]; rename Z into X end; [eapply doub_ends; [eassumption|]; eapply ends_cut, ends_cut, control_ends_b; eassumption|].
    match goal with Y : control _ _ _ |- _ => destruct Y as (w' & -> & Hw' & _) end.
    replace (b ++ 92 :: cs ++ w' ++ w ++ 91 :: i ++ 93 :: s) with (b ++ (92 :: cs ++ (w' ++ w) ++ 91 :: i ++ [93]) ++ [] ++ s)
      by (f_equal; cbn; f_equal; rewrite <- !app_assoc; cbn; rewrite <- !app_assoc; reflexivity).
    apply shy_there; [|reflexivity|exact X]. apply Q_root; [assumption|now apply white_app|assumption].
  - left. match goal with Z : doub s \/ _ |- _ => destruct Z as [Z|[_ Z]]; rename Z into X end; [eapply doub_ends; [eassumption|]; eapply ends_cut, ends_cut, control_ends_b; eassumption|].
    match goal with Y : control _ _ _ |- _ => destruct Y as (w' & -> & Hw' & _) end.
    replace (b ++ 92 :: lit "textcolor" ++ w' ++ w ++ 123 :: x ++ 125 :: s) with (b ++ (lit "\textcolor" ++ (w' ++ w) ++ 123 :: x ++ [125]) ++ [] ++ s)
      by (f_equal; rewrite <- !app_assoc; cbn; rewrite <- !app_assoc; reflexivity).
    apply shy_there; [|reflexivity|exact X]. apply Q_colour; [unfold white in *; rewrite forallb_app; now apply andb_true_intro|assumption].
  - left. match goal with Z : doub (b' ++ t') \/ _ |- _ => destruct Z as [Z|[_ Z]]; rename Z into X end; [eapply doub_ends; [eassumption|]; eapply control_ends_b; eassumption|].
    eapply shy_after; [apply Q_class; eassumption|eassumption|exact X].
  - left. eapply doub_part; [|eassumption|eapply lengths_after; eassumption|eassumption|]; [reflexivity|]. intros s0 w0 H' Hw0 Hn. eapply (DF_strut n); eassumption.
  - left. eapply (doub_part 2); [|eassumption| |eassumption|]; [reflexivity| |].
    + eapply AA_one; [eapply frac_delimiter_one; eassumption|]. eapply AA_one; [eapply frac_delimiter_one; eassumption|constructor].
    + intros s0 w0 H' Hw0 Hn. eapply DF_bar; eassumption.
  - left. assert (Ha : after_arguments 4 s1 s3) by (eapply frac_head; eassumption).
    match goal with X : _ \/ _ \/ _ -> _ |- _ => destruct (X (or_intror (or_introl eq_refl))) as [Hd|[Hs|[[E _]|[_ [Hs|Hs]]]]]; [| |discriminate E| |] end.
    + eapply doub_ends; [exact Hd|]. eapply ends_trans; [|eapply control_ends_b; eassumption]. eapply after_ends, Ha.
    + destruct Hs as (b' & cs & r & Hb' & -> & Hi & Hr). apply (doub_later 3 b (lit "genfrac") t s1 (b' ++ 92 :: cs) r); [reflexivity|assumption|rewrite <- app_assoc; exact Ha|destruct b'; discriminate|exact Hr|].
      intros s0 H' Hn. exact (DC_part s0 b' cs H' Hn Hb' (in_or_app _ _ _ (or_introl Hi))).
    + destruct Hs as (i & w' & s' & Hw' & -> & Hit & (b' & cs & r & Hb' & -> & Hi & Hr)).
      apply (doub_later 3 b (lit "genfrac") t s1 (i ++ (w' ++ b') ++ 92 :: cs) r); [reflexivity|assumption|rewrite <- !app_assoc; exact Ha| |exact Hr|].
      * intros E. apply app_eq_nil in E as [_ E]. apply app_eq_nil in E as [_ E]. discriminate E.
      * intros s0 H' Hn. exact (DC_second_part s0 i (w' ++ b') cs H' Hn Hit (white_blank _ _ Hw' Hb') Hi).
    + destruct Hs as (b' & cs & r & Hb' & -> & Hi & Hr). apply (doub_later 3 b (lit "genfrac") t s1 (b' ++ 92 :: cs) r); [reflexivity|assumption|rewrite <- app_assoc; exact Ha|destruct b'; discriminate|exact Hr|].
      intros s0 H' Hn. exact (DC_part s0 b' cs H' Hn Hb' (in_or_app _ _ _ (or_intror Hi))).
  - left. assert (Ha : after_arguments 2 s s2) by (eapply AA_one; [eassumption|]; eapply AA_one; [eassumption|constructor]).
    match goal with Z : doub s2 \/ _ |- _ => destruct Z as [Hd|[_ Hs]] end.
    + eapply doub_ends; [exact Hd|]. eapply ends_trans; [|eapply control_ends_b; eassumption]. eapply after_ends, Ha.
    + destruct Hs as (b' & cs & r & Hb' & -> & Hi & Hr). destruct (base_shy _ Hi) as [Hi'|(c & Hi1 & Hi2 & Hi3)].
      * apply (doub_later 1 b (lit "sideset") t s (b' ++ 92 :: cs) r); [reflexivity|assumption|rewrite <- app_assoc; exact Ha|destruct b'; discriminate|exact Hr|].
        intros s0 H' Hn. exact (DC_base s0 b' cs H' Hn Hb' Hi').
      * exfalso. match goal with X : ~ operator_first _ |- _ => apply X end. destruct (control_here cs r (shy_wordy _ Hi) (shy_not_nil _ Hi) Hr) as [r' Hc]. exists b', cs, (92 :: cs ++ r), r', c. auto 8.
  - match goal with Z : doub s \/ _ |- _ => destruct Z as [Z|[_ Z]]; rename Z into X end; auto.
  - assert (Hs : s' = s' /\ ends s' s) by (split; [reflexivity|eapply (proj1 meaning_ends); eassumption]). destruct Hs as [_ He].
    destruct H2 as [E|[E|E]]; try discriminate; injection E as ->; [inversion H0|].
    destruct (H1 (or_introl eq_refl)) as [Hd|[Hs|[[E _]|[E _]]]]; try discriminate; [left; eapply doub_ends; eassumption|].
    destruct (argument_item _ _ _ _ H) as [(i & w & Hw & -> & Hi)|[Hd|[Hh|Hc]]]; [|left; exact Hd|right; left; exact Hh|].
    + right. right. right. split; [reflexivity|]. left. exists i, w, s'. auto.
    + right. right. right. split; [reflexivity|]. right. exact Hc.
  - match goal with Z : doub s \/ _ |- _ => destruct Z as [Z|[_ Z]]; rename Z into X end; auto.
  - match goal with X : nucleus _ _ _ _ _ |- _ => apply limits_named in X; [|assumption]; destruct X as [X|X] end; auto.
  - unfold between in *. cbn [In] in *. match goal with H : _ \/ _ \/ In cs _ |- _ => destruct H as [<-|[<-|Hi]] end.
    + right. left. eapply begins_shy; [eassumption..|]. name_in.
    + right. left. eapply begins_shy; [eassumption..|]. name_in.
    + apply in_app_or in Hi as [Hi|Hi].
      * right. right. left. split; [destruct H2 as [E|[E|E]]; [discriminate|discriminate|exact E]|]. right. destruct H0 as (w & -> & _). exists b, cs, (w ++ r). auto.
      * right. left. eapply begins_shy; [eassumption..|]. apply switch_shy. right. exact Hi.
  - right. right. left. split; [destruct H1 as [E|[E|E]]; [discriminate|discriminate|exact E]|]. left. exists b, c, r. auto.
Qed.

Lemma beyond_scripts_doubtful : forall s, beyond_scripts s -> doub s.
Proof.
  assert (A : forall a c s, script_mark c -> beyond true s -> doub (a ++ c :: s)).
  { intros a c s Hc H. apply beyond_doubtful in H as [H|[_ H]]; [eapply doub_ends; [exact H|]; eapply ends_trans; [apply ends_cons|apply ends_app]|].
    apply (shy_there a [c] [] s); [now constructor|reflexivity|exact H]. }
  intros s [w c s0 Hw Hc H|w c s0 a c' s' Hw Hc Hn Hc' Hne H].
  - now apply A.
  - apply (A [] c' s' Hc') in H. eapply doub_ends; [exact H|]. apply (proj1 meaning_ends) in Hn. eapply ends_trans; [exact Hn|].
    eapply ends_trans; [apply ends_cons|apply ends_app].
Qed.

Lemma scripted_mark : forall s, scripted s -> exists w c r, white w /\ script_mark c /\ s = w ++ c :: r.
Proof. intros s [(w & r & Hw & ->)|(w & r & Hw & ->)]; [exists w, 94, r|exists w, 95, r]; unfold script_mark; auto. Qed.
Lemma doub_row : forall a cs w s, In cs row_starts -> white w -> scripted s -> doub (a ++ 92 :: cs ++ w ++ s).
Proof.
  intros a cs w s H Hw Hs. apply scripted_mark in Hs as (w' & c & r & Hw' & Hc & ->).
  left. exists (92 :: cs ++ (w ++ w') ++ [c]). split; [exists a, r; f_equal; cbn; f_equal; rewrite <- !app_assoc; reflexivity|]. apply DF_row; [assumption| |assumption].
  unfold white in *. rewrite forallb_app, Hw', Hw. reflexivity.
Qed.
Lemma lines_row : forall s ls r, lines s ls r -> scripted r -> doub s \/ s = r.
Proof.
  intros s ls r H. induction H as [s Hn|w s ls r Hw H IH|w s ls r Hw H IH]; intros Hr; [right; reflexivity|left..].
  - destruct (IH Hr) as [Hd| ->]; [eapply doub_ends; [exact Hd|]; rewrite app_assoc; apply ends_app|]. apply (doub_row w (lit "hline") [] r); [name_in|reflexivity|exact Hr].
  - destruct (IH Hr) as [Hd| ->]; [eapply doub_ends; [exact Hd|]; rewrite app_assoc; apply ends_app|]. apply (doub_row w (lit "hdashline") [] r); [name_in|reflexivity|exact Hr].
Qed.

Lemma unsaid_doubtful : forall s, unsaid s -> doub s.
Proof.
  intros s H. destruct H.
  - apply beyond_doubtful in H as [H|[H _]]; [exact H|discriminate].
  - eapply doub_ends; [apply beyond_scripts_doubtful; eassumption|]. eapply ends_trans; [eapply placed_ends; eassumption|]. eapply (proj1 meaning_ends). eassumption.
  - eapply doub_ends; [apply beyond_scripts_doubtful; eassumption|]. apply ends_app.
  - match goal with X : control _ _ _ |- _ => destruct X as (w & -> & Hw & _) end. apply doub_row; [name_in|assumption..].
  - match goal with X : scripted _ |- _ => apply scripted_mark in X as (w & c & r & Hw & Hc & ->) end.
    left. exists (38 :: w ++ [c]). split; [exists b, r; cbn; rewrite <- app_assoc; reflexivity|apply DF_mark; assumption].
  - eapply doub_option; eassumption.
  - match goal with X : row_space _ _ _ |- _ => destruct X end.
    2:{ eapply doub_option; eassumption. }
    match goal with Z : lines _ _ _ |- _ => apply lines_row in Z; [|assumption]; destruct Z as [Z|Z]; rename Z into X end; [eapply doub_ends; [exact X|]; eapply control_ends_b; eassumption|].
    subst. match goal with Z : control _ _ _ |- _ => destruct Z as (w & -> & Hw & _) end. apply doub_row; [|assumption..].
    do 3 right. assumption.
Qed.

Lemma plain_said : forall t g, plain t -> part g t -> ~ unsaid g.
Proof.
  intros t g [Ht Ht'] (a & c & -> & Hc) H. apply unsaid_doubtful in H as [(x & (p & q & ->) & Hx)|(x & (p & q & -> & Hq) & Hx)].
  - apply (Ht x); [|exact Hx]. exists (a ++ p), (q ++ c). rewrite <- !app_assoc. reflexivity.
  - apply (Ht' x); [|exact Hx]. exists (a ++ p), (q ++ c). rewrite <- !app_assoc. split; [reflexivity|]. destruct q; [exact Hc|exact Hq].
Qed.

(** ** What is decided *)

Theorem settled : forall t, (forall g, part g t -> ~ unsaid g) ->
  (exists es, @formula nothing_known None t es) \/ exists al g pre e, part g t /\ comes_to t al g pre /\ @fault anything al g e.
Proof.
  intros t H. destruct (decided t) as [G|(al & g & pre & Hp & Hc & [[e He]|Hu])]; [left; exact G|right|exfalso; exact (H g Hp Hu)].
  exists al, g, pre, e. auto.
Qed.

Lemma pure_parses : forall t es, @formula nothing_known None t es -> parses t (map ItEvent es).
Proof. intros t es H. apply meaning_parses. eapply formula_more; [|exact H]. intros ? ? ? Z. exfalso. exact Z. Qed.

Lemma events_inj : forall a b, map ItEvent a = map ItEvent b -> a = b.
Proof. induction a as [|x a IH]; destruct b as [|y b]; cbn; intros H; try discriminate; [reflexivity|]. injection H as -> H. f_equal. apply IH, H. Qed.

Theorem settled_parses : forall t, (forall g, part g t -> ~ unsaid g) -> forall es, parses t (map ItEvent es) <-> @formula nothing_known None t es.
Proof.
  intros t H es. split; [|apply pure_parses]. intros Hp. destruct (settled t H) as [[es' Hf]|(al & g & pre & e & _ & Hc & He)].
  - pose proof (parses_det _ _ _ Hp (pure_parses _ _ Hf)) as E. apply events_inj in E. subst es'. exact Hf.
  - pose proof (shows_fun _ _ _ (fault_there _ _ _ _ _ Hc He) (shows_done _ _ Hp)). discriminate.
Qed.

Theorem settled_fails : forall t, (forall g, part g t -> ~ unsaid g) -> forall pre e, shows (new_parser t) (pre, EndError e) <->
  exists al g, part g t /\ comes_to t al g pre /\ @fault anything al g e.
Proof.
  intros t H pre e. split; [|intros (al & g & _ & Hc & He); eapply fault_there; eassumption]. intros Hs.
  destruct (settled t H) as [[es' Hf]|(al & g & pre' & e' & Hp & Hc & He)].
  - pose proof (shows_fun _ _ _ Hs (shows_done _ _ (pure_parses _ _ Hf))). discriminate.
  - pose proof (shows_fun _ _ _ Hs (fault_there _ _ _ _ _ Hc He)) as E. injection E as -> ->. exists al, g. auto.
Qed.

Theorem settled_ends : forall t, (forall g, part g t -> ~ unsaid g) -> exists es, shows (new_parser t) (es, EndDone) \/ exists e, shows (new_parser t) (es, EndError e).
Proof.
  intros t H. destruct (settled t H) as [[es Hf]|(al & g & pre & e & Hp & Hc & He)].
  - exists es. left. apply shows_done, pure_parses, Hf.
  - exists pre. right. exists e. eapply fault_there; eassumption.
Qed.

Theorem meaning_unique : forall t es es', @formula nothing_known None t es -> @formula nothing_known None t es' -> es = es'.
Proof. intros t es es' H H'. apply events_inj. eapply parses_det; apply pure_parses; eassumption. Qed.

(** ** Checking that a text is plain *)

Definition unfit_b (s : str) : bool :=
  match skip_blank false s with c :: r => (c =? 94) || (c =? 95) || (c =? 38) || (c =? 92) && existsb (fun cs => starts_with cs r) newline_commands | [] => false end.
Definition scripted_b (s : str) : bool := match trim_start s with c :: _ => (c =? 94) || (c =? 95) | [] => false end.
Definition after_b (f : str -> bool) (p s : str) : bool := match strip_prefix p s with Some r => f r | None => false end.
Definition word_end_b (s : str) : bool := match s with c :: _ => negb (is_alpha c) | [] => true end.
Definition name_b (l : list str) (s : str) : bool := match skip_blank false s with c :: r => (c =? 92) && existsb (fun cs => after_b word_end_b cs r) l | [] => false end.
Fixpoint drop_letters (s : str) : str := match s with c :: s' => if is_alpha c then drop_letters s' else s | [] => [] end.
Definition item_rest (s : str) : str :=
  match skip_blank false s with
  | 123 :: r => snd (group_content GKNormal r)
  | 92 :: c :: r => if is_alpha c then drop_letters r else r
  | _ :: r => r
  | [] => []
  end.
Definition space_b (s : str) : bool := match trim_start s with c :: _ => c =? 91 | [] => false end.
Definition has (c : char) (s : str) : bool := existsb (N.eqb c) s.
Fixpoint before_comment (s : str) : option str :=
  match s with [] => None | c :: s' => if c =? 37 then Some [] else match before_comment s' with Some x => Some (c :: x) | None => None end end.
Definition option_b (s : str) : bool :=
  match trim_start s with 91 :: r => match before_comment r with Some x => negb (has 93 x) || has 91 x || has 92 x | None => false end | _ => false end.
Definition root_b (s : str) : bool :=
  match trim_start s with 91 :: r => name_b shy_names (snd (group_content GKOptional r)) | _ => false end.
Definition text_after_b (s : str) : bool :=
  match skip_blank false s with c :: _ => negb (c =? 92) && negb (starts_with [123] (trim_start s)) | [] => false end.
Definition box_b (s : str) : bool := match trim_start s with 123 :: r => text_after_b (snd (group_content GKNormal r)) | _ => false end.
Definition frame_b (s : str) : bool :=
  match trim_start s with
  | 123 :: r =>
      match trim_start (snd (group_content GKNormal r)) with
      | 123 :: r' => match group_content GKNormal r' with (Ok x, q) => match lex_color x with Ok _ => false | _ => true end || text_after_b q | _ => false end
      | _ => false
      end
  | _ => false
  end.
Definition text_b (s : str) : bool :=
  match skip_blank false s with c :: _ => word_end_b s && negb (c =? 92) && negb (starts_with [123] (trim_start s)) | [] => false end.
Definition colour_b (s : str) : bool :=
  match trim_start s with 123 :: r => match group_content GKNormal r with (Ok x, _) => match lex_color x with Ok _ => false | _ => true end | _ => false end | _ => false end.
Definition coloured_b (s : str) : bool :=
  match trim_start s with 123 :: r => name_b shy_names (snd (group_content GKNormal r)) | _ => false end.
Definition two_b (p : str * command) : bool := match c_args (snd p) with [Whole; Whole] => true | _ => false end.
Definition args_b (p : str * command) : bool := match c_args (snd p) with [] => false | _ => true end.
Definition second_b (s : str) : bool := name_b composite_names s || name_b shy_names (item_rest s).
Fixpoint count_columns (s : str) : N :=
  match s with c :: s' => if has c [108; 99; 114] then 1 + count_columns s' else if has c [124; 58] then count_columns s' else 0 | [] => 0 end.
Definition columns_b (s : str) : bool := match trim_start s with 123 :: r => 65535 <=? count_columns r | _ => false end.
Definition pairs_b (s : str) : bool :=
  match trim_start s with
  | 123 :: c :: r =>
      has c [34; 39; 96] || (128 <=? c) ||
      is_digit c && match group_content GKNormal (c :: r) with (Ok x, _) => negb (forallb is_digit x && (decimal_of x <=? 32767)%Z) | _ => false end
  | _ => false
  end.
Definition after_name_b (f : str -> bool) (l : list str) (s : str) : bool := existsb (fun n => after_b f (123 :: n ++ [125]) s) l.
Definition env_b (s : str) : bool :=
  after_name_b option_b (map fst starred_matrices) s || after_name_b columns_b [lit "array"; lit "darray"] s || after_name_b pairs_b (map fst pair_environments) s.
Definition wide_b (y : str) : bool := match y with c :: _ => is_ws c && (128 <=? c) | [] => false end.
Definition bad_b (s : str) : bool := match first_length s with Some (x, y) => negb (length_b x) || wide_b y | None => false end.
Definition word_b (kw : str) (f : str -> bool) (s : str) : bool := match strip_prefix kw (trim_start s) with Some r => f r | None => false end.
Definition later_b (f : str -> bool) (s : str) : bool := match first_length s with Some (_, y) => f y | None => false end.
Definition stretch_b (y : str) : bool := word_b (lit "plus") (fun r => bad_b r || later_b (word_b (lit "minus") bad_b) r) y || word_b (lit "minus") bad_b y.
Definition glue_more_b (s : str) : bool :=
  match group_content GKNormal s with (Ok g, _) => match lex_glue g with (Ok _, z) => negb (forallb is_ws z) | _ => false end | _ => false end.
Definition length_more_b (cs s : str) : bool :=
  bad_b s || is_in cs [lit "hspace"; lit "hskip"; lit "mskip"] && later_b stretch_b s || is_in cs [lit "hspace"] && glue_more_b s.
Definition length_doubt_b (cs s : str) : bool :=
  negb (str_eqb cs (lit "hspace")) && word_end_b s && length_more_b cs s || match trim_start s with 123 :: r => length_more_b cs r | _ => false end.
Definition code_b (s : str) : bool :=
  match trim_start s with
  | c :: r =>
      if c =? 39 then let (ds, y) := span_while is_digit r in existsb (N.leb 56) ds || (2 ^ 64 <=? octal_of ds)%Z || wide_b y
      else if c =? 34 then let (ds, y) := span_while is_hex_upper r in (2 ^ 64 <=? hexadecimal_of ds)%Z || wide_b y
      else (128 <=? c) || let (ds, y) := span_while is_digit (c :: r) in (2 ^ 64 <=? decimal_of ds)%Z || negb (is_nil ds) && wide_b y
  | [] => false
  end.
Definition lengths_b (s : str) : bool :=
  existsb (fun cs => after_b (length_doubt_b cs) (92 :: cs) s) (lit "hspace" :: map fst spaces) || after_b code_b (lit "\char") s.
Definition arg_rest (s : str) : option str :=
  match argc (mkIst (mkSlice 0 0 s) [] false SPRight false false None []) with (Ok _, st) => Some (stxt (i_content st)) | _ => None end.
Fixpoint skip_args (n : nat) (s : str) : option str :=
  match n with O => Some s | S m => match arg_rest s with Some r => skip_args m r | None => None end end.
Definition skipped_b (n : nat) (f : str -> bool) (s : str) : bool := word_end_b s && match skip_args n s with Some r => f r | None => false end.
Definition part_b (m : bool) (s : str) : bool :=
  match trim_start s with
  | 123 :: r => match first_length r with
                | Some (x, y) => negb (length_b x) || wide_b y || m && match y with c :: _ => negb (c =? 125) | [] => false end
                | None => false
                end
  | _ => false
  end.
Definition parts_b (s : str) : bool :=
  after_b (skipped_b 4 (fun r => name_b (shy_names ++ composite_names) r || name_b shy_names (item_rest r))) (lit "\genfrac") s ||
  after_b (skipped_b 2 (part_b false)) (lit "\genfrac") s || after_b (skipped_b 2 (name_b shy_bases)) (lit "\sideset") s ||
  existsb (fun n => after_b (skipped_b n (part_b true)) (lit "\Space") s) [O; 1%nat; 2%nat].
Definition doubtful_b (s : str) : bool :=
  existsb (fun cs => after_b word_end_b (92 :: cs) s) other_commands || env_b s ||
  existsb (fun cs => after_b option_b (92 :: cs) s) (lit "sqrt" :: map fst xarrows) ||
  existsb (fun c => after_b (name_b shy_names) [c] s) [94; 95] ||
  existsb (fun p => args_b p && after_b (name_b shy_names) (92 :: fst p) s || two_b p && after_b second_b (92 :: fst p) s) commands ||
  existsb (fun cs => after_b (name_b shy_names) (92 :: cs) s) (lit "sqrt" :: map fst xarrows) ||
  after_b coloured_b (lit "\textcolor") s ||
  existsb (fun cs => after_b text_b (92 :: cs) s) (lit "operatorname" :: map fst text_commands) ||
  existsb (fun cs => after_b colour_b (92 :: cs) s) colour_commands ||
  existsb (fun cs => after_b unfit_b (92 :: cs) s) (map fst fonts) || after_b scripted_b [38] s ||
  existsb (fun cs => after_b scripted_b (92 :: cs) s) row_starts ||
  existsb (fun cs => after_b space_b (92 :: cs) s) newline_commands || existsb (fun cs => after_b root_b (92 :: cs) s) (lit "sqrt" :: map fst xarrows) ||
  existsb (fun cs => after_b (name_b shy_names) (92 :: cs) s) class_names || after_b box_b (lit "\colorbox") s || (after_b frame_b (lit "\fcolorbox") s || (lengths_b s || parts_b s)).
Fixpoint plain_b (s : str) : bool := negb (doubtful_b s) && match s with [] => true | _ :: s' => plain_b s' end.

Lemma starts_with_app : forall p q, starts_with p (p ++ q) = true.
Proof. intros p q. apply starts_with_spec. exists q. reflexivity. Qed.
Lemma strip_prefix_app : forall p q, strip_prefix p (p ++ q) = Some q.
Proof. induction p as [|c p IH]; intros q; [reflexivity|]. cbn. rewrite N.eqb_refl. apply IH. Qed.
Lemma exists_b : forall {X} (f : X -> bool) x l, In x l -> f x = true -> existsb f l = true.
Proof. intros X f x l H1 H2. apply existsb_exists. exists x. auto. Qed.
Lemma after_here : forall f p q, f q = true -> after_b f p (p ++ q) = true.
Proof. intros f p q H. unfold after_b. rewrite strip_prefix_app. exact H. Qed.
Lemma word_end_here : forall q, not_next letter q -> word_end_b q = true.
Proof. intros [|c q] H; [reflexivity|]. cbn in *. apply negb_true_iff. destruct (is_alpha c) eqn:E; [|reflexivity]. exfalso. apply H, letter_alpha, E. Qed.
Lemma name_here : forall l b cs q, blank b -> In cs l -> not_next letter q -> name_b l (b ++ 92 :: cs ++ q) = true.
Proof.
  intros l b cs q Hb H Hq. unfold name_b. rewrite skip_blank_app by exact Hb.
  exact (exists_b (fun x => after_b word_end_b x (cs ++ q)) cs l H (after_here _ _ _ (word_end_here _ Hq))).
Qed.
Lemma scripted_here : forall w c q, white w -> script_mark c -> scripted_b (w ++ c :: q) = true.
Proof. intros w c q Hw Hc. unfold scripted_b. rewrite trim_white by exact Hw. destruct Hc as [->| ->]; reflexivity. Qed.
Lemma skip_char : forall c s, is_ws c = false -> c <> 37 -> skip_blank false (c :: s) = c :: s.
Proof. intros c s H1 H2. cbn [skip_blank]. rewrite H1, (proj2 (N.eqb_neq c 37) H2). reflexivity. Qed.
Lemma group_here : forall g q, balanced 123 125 g -> group_content GKNormal (g ++ 125 :: q) = (Ok g, q).
Proof. intros g q H. apply (group_content_balanced GKNormal 123 125); [left; auto|]. split; [reflexivity|exact H]. Qed.
Lemma drop_letters_app : forall cs q, Forall letter cs -> not_next letter q -> drop_letters (cs ++ q) = q.
Proof.
  induction 1 as [|c cs Hc _ IH]; intros Hq; cbn [app].
  - destruct q as [|c q]; [reflexivity|]. cbn. destruct (is_alpha c) eqn:E; [|reflexivity]. exfalso. apply Hq. apply letter_alpha. exact E.
  - cbn [drop_letters]. rewrite (proj2 (letter_alpha c) Hc). apply IH, Hq.
Qed.
Lemma letter_not_ws : forall c, letter c -> is_ws c = false.
Proof.
  intros c H. unfold letter in H. unfold is_ws.
  repeat match goal with |- context [?a <=? ?b] => destruct (N.leb_spec a b); try lia
    | |- context [?a =? ?b] => destruct (N.eqb_spec a b); try lia end; reflexivity.
Qed.
Lemma not_letter_blank : forall b q, blank b -> not_next letter (b ++ 92 :: q).
Proof.
  intros b q H. destruct H as [|c b Hc Hb|t b Ht Hb]; cbn; [unfold letter; lia| |unfold letter; lia].
  intros X. apply letter_not_ws in X. congruence.
Qed.
Lemma item_here : forall i b q, item i -> blank b -> item_rest (i ++ b ++ 92 :: q) = b ++ 92 :: q.
Proof.
  intros i b q Hi Hb. destruct Hi as [b' g Hb' Hg|b' c Hb' H1 H2 H3 H4|b' cs Hb' Hn Hl|b' c Hb' Hl]; unfold item_rest; rewrite <- app_assoc, skip_blank_app by assumption; cbn [app].
  - rewrite skip_char by (reflexivity || discriminate). rewrite <- app_assoc. cbn [app]. rewrite group_here by assumption. reflexivity.
  - rewrite skip_char by assumption. destruct c as [|p]; [reflexivity|]. do 8 (try destruct p as [p|p|]); try reflexivity; exfalso; (apply H3; reflexivity) || (apply H4; reflexivity).
  - rewrite skip_char by (reflexivity || discriminate). destruct cs as [|c cs]; [contradiction|]. inversion Hl; subst. cbn [app]. rewrite (proj2 (letter_alpha c)) by assumption.
    apply drop_letters_app; [assumption|]. now apply not_letter_blank.
  - rewrite skip_char by (reflexivity || discriminate). destruct (is_alpha c) eqn:E; [|reflexivity]. exfalso. apply Hl, letter_alpha, E.
Qed.

Lemma not_open_here : forall b c q, blank b -> is_ws c = false -> c <> 37 -> c <> 123 \/ ~ white b -> starts_with [123] (trim_start (b ++ c :: q)) = false.
Proof.
  intros b c q Hb H1 H2 H4. destruct (starts_with [123] (trim_start (b ++ c :: q))) eqn:E; [|reflexivity]. exfalso. destruct H4 as [H4|H4].
  - apply H4. clear -E Hb H1 H2 H4. revert E. induction Hb as [|d b Hd Hb IH|t b Ht Hb IH]; cbn [app trim_start].
    + rewrite H1. cbn [starts_with]. intros E. destruct (N.eqb_spec 123 c) as [E'|E']; [congruence|]. cbn in E. destruct c; cbn in E; congruence.
    + rewrite Hd. exact IH.
    + intros E. cbn in E. discriminate E.
  - apply H4. clear -E Hb. revert E. induction Hb as [|d b Hd Hb IH|t b Ht Hb IH]; cbn [app trim_start]; intros E.
    + reflexivity.
    + rewrite Hd in E. unfold white in *. cbn. rewrite Hd. apply IH, E.
    + cbn in E. discriminate E.
Qed.
Lemma text_after_here : forall b c q, blank b -> is_ws c = false -> c <> 37 -> c <> 92 -> c <> 123 \/ ~ white b -> text_after_b (b ++ c :: q) = true.
Proof.
  intros b c q Hb H1 H2 H3 H4. unfold text_after_b. rewrite skip_blank_app, skip_char by assumption. rewrite not_open_here by assumption. rewrite andb_true_r. apply negb_true_iff, N.eqb_neq. assumption.
Qed.
Lemma has_in : forall c s, has c s = true <-> In c s.
Proof.
  intros c s. unfold has. rewrite existsb_exists. split; [intros (x & H & E); apply N.eqb_eq in E; congruence|]. intros H. exists c. split; [exact H|apply N.eqb_refl].
Qed.
Lemma before_here : forall x q, ~ In 37 x -> before_comment (x ++ 37 :: q) = Some x.
Proof.
  induction x as [|c x IH]; intros q H; cbn [In] in H; [reflexivity|]. cbn [app before_comment]. rewrite (proj2 (N.eqb_neq c 37)) by auto. rewrite IH by auto. reflexivity.
Qed.

Lemma count_here : forall a cols, columns a cols -> forall q, N.of_nat (column_count cols) <= count_columns (a ++ q).
Proof.
  induction 1 as [|c x a cols Hc H IH]; intros q; [cbn; lia|]. specialize (IH q). cbn [app].
  destruct Hc as [Hc|[Hc|[Hc|[Hc|[Hc|[]]]]]]; injection Hc as <- <-; cbn [count_columns has existsb N.eqb Pos.eqb orb]; unfold column_count in *; cbn [filter length]; lia.
Qed.
Lemma after_name : forall f name l q, In name l -> f q = true -> after_name_b f l (123 :: name ++ 125 :: q) = true.
Proof.
  intros f name l q H Hf. unfold after_name_b. apply (exists_b _ name _ H). replace (123 :: name ++ 125 :: q) with ((123 :: name ++ [125]) ++ q) by flat. apply after_here, Hf.
Qed.
Lemma option_here : forall w x q, white w -> ~ In 37 x -> ~ In 93 x \/ In 91 x \/ In 92 x -> option_b (w ++ 91 :: x ++ 37 :: q) = true.
Proof.
  intros w x q Hw Hx Hx'. unfold option_b. rewrite trim_to by (assumption || reflexivity). rewrite before_here by exact Hx. rewrite !orb_true_iff, negb_true_iff.
  destruct Hx' as [Hy|[Hy|Hy]]; [left; left|left; right|right].
  - destruct (has 93 x) eqn:E; [|reflexivity]. exfalso. apply Hy, has_in, E.
  - apply has_in, Hy.
  - apply has_in, Hy.
Qed.
Lemma digits_b : forall x, forallb is_digit x = true -> digits x.
Proof. intros x E. apply Forall_forall. intros c Hc. apply digit_is. exact (proj1 (forallb_forall _ _) E c Hc). Qed.

Lemma lengths_named : forall cs x, doubtful_length cs x -> In cs (lit "hspace" :: map fst spaces).
Proof.
  intros cs x [cs' y Hin _|cs' q y Hin _ _|y d p m z _ _ _]; [exact Hin| |left; reflexivity]. destruct Hin as [<-|[<-|[<-|[]]]]; name_in.
Qed.

Lemma bad_here : forall x q, bad_length x -> bad_b (x ++ q) = true.
Proof.
  intros x q [x0 Hx Hn|x0 d c Hx H1 H2]; unfold bad_b; rewrite <- ?app_assoc.
  - rewrite first_some by exact Hx. destruct (length_b x0) eqn:E; [|reflexivity]. apply length_b_sound in E as [d Hd]. exfalso. exact (Hn d Hd).
  - rewrite first_some by (eapply dimension_length, Hx). apply orb_true_iff. right. cbn. rewrite H1. apply N.leb_le, H2.
Qed.
Lemma word_here : forall kw f w q, kw = lit "plus" \/ kw = lit "minus" -> white w -> f q = true -> word_b kw f (w ++ kw ++ q) = true.
Proof. intros kw f w q Hk Hw Hf. unfold word_b. rewrite (goes_strip kw _ q Hk) by (exists w; auto). exact Hf. Qed.
Lemma later_here : forall f x d q, dimension_text x d -> f q = true -> later_b f (x ++ q) = true.
Proof. intros f x d q Hx Hf. unfold later_b. rewrite first_some by (eapply dimension_length, Hx). exact Hf. Qed.

Lemma more_here : forall cs x q, doubtful_length cs x -> length_more_b cs (x ++ q) = true.
Proof.
  intros cs x q H. unfold length_more_b. rewrite !orb_true_iff. destruct H as [cs x Hin Hx|cs a x Hin Ha Hx|x d p m z Hx Hb Hz].
  - do 2 left. now apply bad_here.
  - left. right. apply andb_true_intro. split; [destruct Hin as [<-|[<-|[<-|[]]]]; reflexivity|]. pose proof (bad_here x q Hx) as Hbad.
    destruct Ha as [y d w Hy Hw|y d w Hy Hw|y d w y' d' w' Hy Hw Hy' Hw']; rewrite <- !app_assoc; (eapply later_here; [exact Hy|]); unfold stretch_b; apply orb_true_iff.
    + left. apply word_here; auto. rewrite Hbad. reflexivity.
    + right. apply word_here; auto.
    + left. apply word_here; auto. apply orb_true_iff. right. eapply later_here; [exact Hy'|]. apply word_here; auto.
  - right. rewrite <- app_assoc. cbn [app]. unfold glue_more_b. rewrite brace_group by exact Hb. rewrite (stretched_read _ _ _ _ _ Hx). cbn [is_in existsb andb].
    destruct (forallb is_ws z) eqn:E; [contradiction|reflexivity].
Qed.

Lemma length_here : forall cs o x q, lead cs o -> doubtful_length cs x -> not_next letter (o ++ x) -> length_doubt_b cs (o ++ x ++ q) = true.
Proof.
  intros cs o x q Hl Hx Hn. pose proof (more_here _ _ q Hx) as Hm. unfold length_doubt_b. destruct Hl as [[-> Hcs]|(w & Hw & ->)].
  - apply orb_true_iff. left. cbn [app] in *. rewrite Hm. destruct (str_eqb cs (lit "hspace")) eqn:E; [apply str_eqb_eq in E; contradiction|]. cbn [negb andb].
    rewrite andb_true_r. apply word_end_here. destruct x as [|c x]; [|exact Hn]. exfalso. unfold length_more_b in Hm.
    assert (Hnil : forall y, doubtful_length cs y -> y <> []).
    { clear. assert (Hb : forall x, bad_length x -> x <> []) by (intros x Hx ->; apply (bad_here _ []) in Hx; discriminate Hx).
      intros y [cs' x Hin Hx|cs' a x Hin Ha Hx|x d p m z Hx Hb' Hz] E; [exact (Hb _ Hx E)| |destruct x; discriminate]. apply app_eq_nil in E as [_ E]. exact (Hb _ Hx E). }
    exact (Hnil _ Hx eq_refl).
  - apply orb_true_iff. right. rewrite <- app_assoc. cbn [app]. rewrite trim_to by (assumption || reflexivity). exact Hm.
Qed.

Lemma decimal_more : forall b a, digits a -> digits b -> (decimal_of a <= decimal_of (a ++ b))%Z.
Proof.
  induction b as [|c b IH]; intros a Ha Hb; [rewrite app_nil_r; lia|]. inversion Hb as [|? ? Hc Hb']; subst.
  assert (Ha' : digits (a ++ [c])) by (apply Forall_app; split; [exact Ha|constructor; [exact Hc|constructor]]).
  specialize (IH (a ++ [c]) Ha' Hb'). rewrite <- app_assoc in IH. cbn [app] in IH. etransitivity; [|exact IH].
  pose proof (decimal_nonneg a Ha) as H0. unfold decimal_of. rewrite fold_left_app. cbn [fold_left]. fold (decimal_of a). unfold digit in Hc. lia.
Qed.

Lemma digits_forallb : forall ds, digits ds -> forallb is_digit ds = true.
Proof. intros ds H. apply forallb_forall. intros c Hc. apply digit_is. exact (proj1 (Forall_forall _ _) H c Hc). Qed.

Lemma span_more : forall (f : char -> bool) ds q ds' y, forallb f ds = true -> span_while f (ds ++ q) = (ds', y) -> exists m, ds' = ds ++ m /\ forallb f m = true.
Proof.
  intros f. induction ds as [|c ds IH]; intros q ds' y Hd Es; cbn [app forallb] in *.
  - apply span_while_spec in Es as (_ & H & _). exists ds'. split; [reflexivity|exact H].
  - apply andb_prop in Hd as [Hc Hd]. cbn [span_while] in Es. rewrite Hc in Es. destruct (span_while f (ds ++ q)) as [a b] eqn:E. injection Es as <- <-.
    destruct (IH q a b Hd E) as (m & -> & Hm). exists m. auto.
Qed.

Lemma octal_more : forall a m, digits (a ++ m) -> (octal_of a <= octal_of (a ++ m))%Z.
Proof.
  intros a m H. rewrite !octal_based by (try exact H; apply Forall_app in H; apply H). rewrite fold_left_app. apply (based_mono 8); [lia|].
  apply (based_mono 8); lia.
Qed.

Lemma hexadecimal_more : forall a m, Forall hexadecimal_digit (a ++ m) -> (hexadecimal_of a <= hexadecimal_of (a ++ m))%Z.
Proof.
  intros a m H. rewrite !hexadecimal_based by (try exact H; apply Forall_app in H; apply H). rewrite fold_left_app. apply (based_mono 16); [lia|].
  apply (based_mono 16); lia.
Qed.

Lemma octal_forallb : forall ds, Forall octal_digit ds -> forallb is_digit ds = true.
Proof. intros ds H. apply digits_forallb, octal_digits, H. Qed.

Lemma hexadecimal_forallb : forall ds, Forall hexadecimal_digit ds -> forallb is_hex_upper ds = true.
Proof. intros ds H. apply forallb_forall. intros c Hc. apply hexadecimal_is. exact (proj1 (Forall_forall _ _) H c Hc). Qed.

Lemma hexadecimal_b : forall ds, forallb is_hex_upper ds = true -> Forall hexadecimal_digit ds.
Proof. intros ds H. apply Forall_forall. intros c Hc. apply hexadecimal_is. exact (proj1 (forallb_forall _ _) H c Hc). Qed.

Lemma ws_not_hexadecimal : forall c, 128 <= c -> is_hex_upper c = false.
Proof. intros c H. destruct (is_hex_upper c) eqn:E; [|reflexivity]. apply hexadecimal_is in E. unfold hexadecimal_digit, digit in E. lia. Qed.

Lemma code_here : forall w x q, white w -> doubtful_code x -> code_b (w ++ x ++ q) = true.
Proof.
  intros w x q Hw Hx. unfold code_b. rewrite trim_white by exact Hw.
  assert (Hhead : forall ds z, digits ds -> ds <> [] -> exists c r, ds ++ z = c :: r /\ trim_start (ds ++ z) = c :: r /\ c =? 39 = false /\ c =? 34 = false).
  { intros [|c ds] z Hd Hn; [contradiction|]. exists c, (ds ++ z). split; [reflexivity|]. inversion Hd as [|? ? Hc ?]; subst. cbn. rewrite digit_no_ws by assumption.
    split; [reflexivity|]. unfold digit in Hc. split; apply N.eqb_neq; lia. }
  assert (Hsign : forall c r, c = 39 \/ c = 34 -> trim_start (c :: r) = c :: r) by (intros c r [-> | ->]; reflexivity).
  destruct Hx as [c Hc Hs|x z Hf Hl|ds c Hd Hc|x z c Hf H1 H2].
  - cbn [app trim_start]. rewrite Hs. replace (c =? 39) with false by (symmetry; apply N.eqb_neq; lia). replace (c =? 34) with false by (symmetry; apply N.eqb_neq; lia).
    apply orb_true_iff. left. apply N.leb_le, Hc.
  - destruct Hf as [ds Hd Hn|ds Hd|ds Hd].
    + destruct (Hhead ds q Hd Hn) as (c & r & E & -> & -> & ->). apply orb_true_iff. right. rewrite <- E.
      destruct (span_while is_digit (ds ++ q)) as [ds' y] eqn:Es. apply orb_true_iff. left.
      destruct (span_more _ _ _ _ _ (digits_forallb _ Hd) Es) as (m & -> & Hm). apply Z.leb_le. apply digits_b in Hm. pose proof (decimal_more m ds Hd Hm). lia.
    + cbn [app]. rewrite Hsign by auto. cbn [N.eqb Pos.eqb]. destruct (span_while is_digit (ds ++ q)) as [ds' y] eqn:Es. rewrite !orb_true_iff. left. right.
      destruct (span_more _ _ _ _ _ (octal_forallb _ Hd) Es) as (m & -> & Hm). apply Z.leb_le. apply digits_b in Hm.
      pose proof (octal_more ds m ltac:(apply Forall_app; split; [apply octal_digits, Hd|exact Hm])). lia.
    + cbn [app]. rewrite Hsign by auto. cbn [N.eqb Pos.eqb]. destruct (span_while is_hex_upper (ds ++ q)) as [ds' y] eqn:Es. rewrite !orb_true_iff. left.
      destruct (span_more _ _ _ _ _ (hexadecimal_forallb _ Hd) Es) as (m & -> & Hm). apply Z.leb_le. apply hexadecimal_b in Hm.
      pose proof (hexadecimal_more ds m ltac:(apply Forall_app; split; [exact Hd|exact Hm])). lia.
  - cbn [app]. rewrite Hsign by auto. cbn [N.eqb Pos.eqb]. destruct (span_while is_digit ((ds ++ [c]) ++ q)) as [ds' y] eqn:Es.
    assert (Hdc : forallb is_digit (ds ++ [c]) = true). { rewrite forallb_app, (octal_forallb _ Hd). destruct Hc as [-> | ->]; reflexivity. }
    destruct (span_more _ _ _ _ _ Hdc Es) as (m & -> & Hm). rewrite !orb_true_iff. left. left. apply existsb_exists. exists c.
    split; [apply in_or_app; left; apply in_or_app; right; left; reflexivity|]. destruct Hc as [-> | ->]; reflexivity.
  - assert (Hw2 : forall r, wide_b (c :: r) = true) by (intros r; cbn; rewrite H1; apply N.leb_le, H2).
    destruct Hf as [ds Hd Hn|ds Hd|ds Hd].
    + rewrite <- app_assoc. destruct (Hhead ds ([c] ++ q) Hd Hn) as (c0 & r & E & -> & -> & ->). apply orb_true_iff. right. rewrite <- E. cbn [app].
      rewrite span_is; [|apply digits_forallb, Hd|exact (proj1 (ws_not_digit c H1))]. apply orb_true_iff. right. destruct ds; [contradiction|]. cbn [is_nil negb andb]. apply Hw2.
    + cbn [app]. rewrite Hsign by auto. cbn [N.eqb Pos.eqb]. rewrite <- app_assoc. cbn [app].
      rewrite span_is; [|apply octal_forallb, Hd|exact (proj1 (ws_not_digit c H1))]. rewrite Hw2. apply orb_true_r.
    + cbn [app]. rewrite Hsign by auto. cbn [N.eqb Pos.eqb]. rewrite <- app_assoc. cbn [app].
      rewrite span_is; [|apply hexadecimal_forallb, Hd|apply ws_not_hexadecimal, H2]. rewrite Hw2. apply orb_true_r.
Qed.

Lemma one_skip : forall s r, one_argument s r -> arg_rest s = Some r.
Proof.
  intros s r H. unfold arg_rest. destruct (one_argument_run s r (mkIst (mkSlice 0 0 s) [] false SPRight false false None []) H eq_refl) as (_ & a & c & -> & Hc). cbn. rewrite Hc. reflexivity.
Qed.
Lemma after_skip : forall n s r, after_arguments n s r -> skip_args n s = Some r.
Proof. intros n s r H. induction H as [s|n s s1 r H1 H2 IH]; [reflexivity|]. cbn [skip_args]. rewrite (one_skip _ _ H1). exact IH. Qed.
Lemma skipped_here : forall n s r q f, after_arguments n s r -> r <> [] -> not_next letter s -> f (r ++ q) = true -> skipped_b n f (s ++ q) = true.
Proof.
  intros n s r q f H Hr Hn Hf. unfold skipped_b. rewrite (after_skip _ _ _ (after_app _ _ _ q H Hr)), Hf, andb_true_r. apply word_end_here. apply next_same; [eapply after_not_nil; eassumption|exact Hn].
Qed.
Lemma part_here : forall m w x q, white w -> doubtful_part m x -> part_b m (w ++ (123 :: x) ++ q) = true.
Proof.
  intros m w x q Hw H. unfold part_b. cbn [app]. rewrite trim_to by (assumption || reflexivity).
  destruct H as [m x [x0 Hx0 Hn|x0 d c Hx0 H1 H2]|x d c Hx H1].
  - rewrite (first_some _ q Hx0). destruct (length_b x0) eqn:E; [|reflexivity]. apply length_b_sound in E as [d Hd]. exfalso. exact (Hn d Hd).
  - rewrite <- app_assoc, (first_some x0 ([c] ++ q) (dimension_length _ _ Hx0)). cbn [app wide_b]. rewrite H1. replace (128 <=? c) with true by (symmetry; apply N.leb_le; exact H2). rewrite orb_true_r. reflexivity.
  - rewrite <- app_assoc, (first_some x ([c] ++ q) (dimension_length _ _ Hx)). cbn [app]. apply N.eqb_neq in H1. rewrite H1. apply orb_true_r.
Qed.

Lemma doubtful_b_ok : forall x q, doubtful x -> doubtful_b (x ++ q) = true.
Proof.
  intros x q H. unfold doubtful_b. rewrite !orb_true_iff.
  destruct H as [name w x H Hw Hx Hx'|name w a cols H Hw Hx Hn|name w c H Hw Hx|name w c x H Hw Hx Hd Hn|cs o x Ho Hx Hn|w x Hw Hx|s w x Ha Hn Hw Hx|n s w x Hlt Ha Hn Hw Hx|cs w H Hw|cs w x H Hw Hx Hx'|cs b c H Hb H1 H2 H3 H4 H5|x b c H Hb H1 H2 H3 H4|w x w' x' Hw Hw' Hx Hx' Hn|cs w x H Hw Hx Hn|cs b c H Hb Hc|cs b cs' H Hb Hc|w c Hw Hc|cs w c H Hw Hc].
  - do 15 left. right. unfold env_b. rewrite !orb_true_iff. left. left. replace ((123 :: name ++ 125 :: w ++ 91 :: x ++ [37]) ++ q) with (123 :: name ++ 125 :: w ++ 91 :: x ++ 37 :: q) by flat.
    apply after_name; [exact H|]. now apply option_here.
  - do 15 left. right. unfold env_b. rewrite !orb_true_iff. left. right. replace ((123 :: name ++ 125 :: w ++ 123 :: a) ++ q) with (123 :: name ++ 125 :: w ++ 123 :: a ++ q) by flat.
    apply after_name; [exact H|]. unfold columns_b. rewrite trim_to by (assumption || reflexivity). apply N.leb_le. pose proof (count_here _ _ Hx q). lia.
  - do 15 left. right. unfold env_b. rewrite !orb_true_iff. right. replace ((123 :: name ++ 125 :: w ++ [123; c]) ++ q) with (123 :: name ++ 125 :: w ++ 123 :: c :: q) by flat.
    apply after_name; [exact H|]. unfold pairs_b. rewrite trim_to by (assumption || reflexivity). rewrite !orb_true_iff. left. destruct Hx as [->|[->|[->|Hx]]]; [left; reflexivity..|right; apply N.leb_le, Hx].
  - do 15 left. right. unfold env_b. rewrite !orb_true_iff. right. replace ((123 :: name ++ 125 :: w ++ 123 :: (c :: x) ++ [125]) ++ q) with (123 :: name ++ 125 :: w ++ 123 :: c :: x ++ 125 :: q) by flat.
    apply after_name; [exact H|]. unfold pairs_b. rewrite trim_to by (assumption || reflexivity). rewrite !orb_true_iff. right. apply andb_true_intro. split; [apply digit_is; assumption|].
    change (c :: x ++ 125 :: q) with ((c :: x) ++ 125 :: q). rewrite group_here by assumption. apply negb_true_iff.
    destruct (forallb is_digit (c :: x) && (decimal_of (c :: x) <=? 32767)%Z) eqn:E; [|reflexivity]. exfalso. apply Hn. apply andb_prop in E as [E1 E2]. split; [apply digits_b, E1|apply Z.leb_le, E2].
  - right. right. left. unfold lengths_b. apply orb_true_iff. left. apply (exists_b _ cs); [eapply lengths_named, Hx|].
    replace ((92 :: cs ++ o ++ x) ++ q) with ((92 :: cs) ++ o ++ x ++ q) by flat. apply after_here. now apply length_here.
  - right. right. left. unfold lengths_b. apply orb_true_iff. right. rewrite <- !app_assoc. apply after_here. now apply code_here.
  - do 3 right. unfold parts_b. rewrite !orb_true_iff. left. left. right. rewrite <- app_assoc. apply after_here. eapply skipped_here; [exact Ha|destruct w; discriminate|exact Hn|].
    rewrite <- app_assoc. now apply part_here.
  - do 3 right. unfold parts_b. rewrite !orb_true_iff. right. apply (exists_b _ n); [destruct n as [|[|[|n]]]; [cbn; auto..|lia]|]. rewrite <- app_assoc. apply after_here.
    eapply skipped_here; [exact Ha|destruct w; discriminate|exact Hn|]. rewrite <- app_assoc. now apply part_here.
  - do 4 left. right. apply (exists_b _ cs _ H). replace ((92 :: cs ++ w ++ [91]) ++ q) with ((92 :: cs) ++ w ++ 91 :: q) by (cbn; rewrite <- !app_assoc; reflexivity).
    apply after_here. unfold space_b. rewrite trim_white by exact Hw. reflexivity.
  - do 14 left. right. apply (exists_b _ cs _ H). replace ((92 :: cs ++ w ++ 91 :: x ++ [37]) ++ q) with ((92 :: cs) ++ w ++ 91 :: x ++ 37 :: q) by (cbn; f_equal; rewrite <- !app_assoc; cbn; rewrite <- !app_assoc; reflexivity).
    apply after_here. now apply option_here.
  - do 9 left. right. apply (exists_b _ cs _ H). replace ((92 :: cs ++ b ++ [c]) ++ q) with ((92 :: cs) ++ b ++ c :: q) by (cbn; rewrite <- !app_assoc; reflexivity).
    apply after_here. unfold text_b. rewrite skip_blank_app, skip_char by assumption. apply andb_true_intro. split; [apply andb_true_intro; split; [apply word_end_here; destruct b; exact H5|apply negb_true_iff, N.eqb_neq; assumption]|].
    apply negb_true_iff. now apply not_open_here.
  - destruct H as [w x Hw Hx|w x w' x' Hw Hw' Hx Hx'].
    + do 1 left. right. replace (((lit "\colorbox" ++ w ++ 123 :: x ++ [125]) ++ b ++ [c]) ++ q) with (lit "\colorbox" ++ w ++ 123 :: x ++ 125 :: b ++ c :: q)
        by (flat).
      apply after_here. unfold box_b. rewrite trim_to by (assumption || reflexivity). rewrite group_here by assumption. now apply text_after_here.
    + right. left. replace (((lit "\fcolorbox" ++ w ++ 123 :: x ++ 125 :: w' ++ 123 :: x' ++ [125]) ++ b ++ [c]) ++ q) with (lit "\fcolorbox" ++ w ++ 123 :: x ++ 125 :: w' ++ 123 :: x' ++ 125 :: b ++ c :: q)
        by (flat).
      apply after_here. unfold frame_b. rewrite trim_to by (assumption || reflexivity). rewrite group_here by assumption. cbn [snd]. rewrite trim_to by (assumption || reflexivity). rewrite group_here by assumption.
      rewrite text_after_here by assumption. apply orb_true_r.
  - right. left. replace ((lit "\fcolorbox" ++ w ++ 123 :: x ++ 125 :: w' ++ 123 :: x' ++ [125]) ++ q) with (lit "\fcolorbox" ++ w ++ 123 :: x ++ 125 :: w' ++ 123 :: x' ++ 125 :: q)
      by (flat).
    apply after_here. unfold frame_b. rewrite trim_to by (assumption || reflexivity). rewrite group_here by assumption. cbn [snd]. rewrite trim_to by (assumption || reflexivity). rewrite group_here by assumption.
    destruct (lex_color x') as [o| | |] eqn:E; try reflexivity. exfalso. apply (Hn o). reflexivity.
  - do 8 left. right. apply (exists_b _ cs _ H). replace ((92 :: cs ++ w ++ 123 :: x ++ [125]) ++ q) with ((92 :: cs) ++ w ++ 123 :: x ++ 125 :: q) by (cbn; f_equal; rewrite <- !app_assoc; cbn; rewrite <- !app_assoc; reflexivity).
    apply after_here. unfold colour_b. rewrite trim_to by (assumption || reflexivity). rewrite group_here by assumption. destruct (lex_color x) as [o| | |] eqn:E; try reflexivity. exfalso. apply (Hn o). reflexivity.
  - do 7 left. right. apply (exists_b _ cs _ H). replace ((92 :: cs ++ b ++ [c]) ++ q) with ((92 :: cs) ++ b ++ c :: q) by (cbn; rewrite <- !app_assoc; reflexivity).
    apply after_here. unfold unfit_b. rewrite skip_blank_app by exact Hb. destruct Hc as [->|[->| ->]]; reflexivity.
  - do 7 left. right. apply (exists_b _ cs _ H). replace ((92 :: cs ++ b ++ 92 :: cs') ++ q) with ((92 :: cs) ++ b ++ 92 :: cs' ++ q) by (cbn; rewrite <- !app_assoc; reflexivity).
    apply after_here. unfold unfit_b. rewrite skip_blank_app by exact Hb.
    pose proof (exists_b (fun cs => starts_with cs (cs' ++ q)) cs' _ Hc (starts_with_app _ _)) as X. exact X.
  - do 6 left. right. replace ((38 :: w ++ [c]) ++ q) with ([38] ++ w ++ c :: q) by (cbn; rewrite <- !app_assoc; reflexivity). apply after_here. now apply scripted_here.
  - do 5 left. right. apply (exists_b _ cs _ H). replace ((92 :: cs ++ w ++ [c]) ++ q) with ((92 :: cs) ++ w ++ c :: q) by (cbn; rewrite <- !app_assoc; reflexivity).
    apply after_here. now apply scripted_here.
Qed.

Lemma doubtful_word_b_ok : forall x q, doubtful_command x -> not_next letter q -> doubtful_b (x ++ q) = true.
Proof.
  intros x q H Hq. unfold doubtful_b. rewrite !orb_true_iff. destruct H as [cs H|x b cs Hx Hb Hc|cs c b cs' H Ha Hb Hc|s b cs Ha Hn Hb Hc|s i b cs Ha Hn Hi Hb Hc|s b cs Ha Hn Hb Hc].
  - do 16 left. apply (exists_b _ cs _ H). apply after_here, word_end_here, Hq.
  - replace ((x ++ b ++ 92 :: cs) ++ q) with (x ++ b ++ 92 :: cs ++ q) by (rewrite <- !app_assoc; reflexivity).
    pose proof (name_here shy_names b cs q Hb Hc Hq) as Hn. destruct Hx as [c Hs|cs' c Hi Ha|cs' c i Hi Ha Ht|cs' Hi|w x Hw Hx|cs' w i Hi Hw Hx|cs' Hi].
    + do 13 left. right. apply (exists_b _ c); [destruct Hs as [->| ->]; cbn; auto|]. apply (after_here _ [c]), Hn.
    + do 12 left. right. apply (exists_b _ (cs', c) _ Hi). apply orb_true_iff. left. apply andb_true_intro. split; [unfold args_b; cbn [snd]; destruct (c_args c); [contradiction|reflexivity]|].
      apply (after_here _ (92 :: cs')), Hn.
    + do 12 left. right. apply (exists_b _ (cs', c) _ Hi). apply orb_true_iff. right. apply andb_true_intro. split; [unfold two_b; cbn [snd]; rewrite Ha; reflexivity|].
      replace ((92 :: cs' ++ i) ++ b ++ 92 :: cs ++ q) with ((92 :: cs') ++ i ++ b ++ 92 :: cs ++ q) by (cbn; rewrite <- !app_assoc; reflexivity).
      apply after_here. unfold second_b. apply orb_true_iff. right. rewrite item_here by assumption. exact Hn.
    + do 11 left. right. apply (exists_b _ cs' _ Hi). apply (after_here _ (92 :: cs')), Hn.
    + do 10 left. right. replace ((lit "\textcolor" ++ w ++ 123 :: x ++ [125]) ++ b ++ 92 :: cs ++ q) with (lit "\textcolor" ++ w ++ 123 :: x ++ 125 :: b ++ 92 :: cs ++ q) by (rewrite <- !app_assoc; cbn; rewrite <- !app_assoc; reflexivity).
      apply after_here. unfold coloured_b. rewrite trim_to by (assumption || reflexivity). rewrite group_here by assumption. exact Hn.
    + do 3 left. right. apply (exists_b _ cs' _ Hi). replace ((92 :: cs' ++ w ++ 91 :: i ++ [93]) ++ b ++ 92 :: cs ++ q) with ((92 :: cs') ++ w ++ 91 :: i ++ 93 :: b ++ 92 :: cs ++ q) by (cbn; f_equal; rewrite <- !app_assoc; cbn; rewrite <- !app_assoc; reflexivity).
      apply after_here. unfold root_b. rewrite trim_to by (assumption || reflexivity). rewrite (proj2 (group_content_balanced GKOptional 91 93 ltac:(right; auto) _ i (b ++ 92 :: cs ++ q))) by auto. exact Hn.
    + do 2 left. right. apply (exists_b _ cs' _ Hi). apply (after_here _ (92 :: cs')), Hn.
  - do 12 left. right. apply (exists_b _ (cs, c) _ H). apply orb_true_iff. right. apply andb_true_intro. split; [unfold two_b; cbn [snd]; rewrite Ha; reflexivity|].
    replace ((92 :: cs ++ b ++ 92 :: cs') ++ q) with ((92 :: cs) ++ b ++ 92 :: cs' ++ q) by (cbn; rewrite <- !app_assoc; reflexivity).
    apply after_here. unfold second_b. apply orb_true_iff. left. now apply name_here.
  - do 3 right. unfold parts_b. rewrite !orb_true_iff. left. left. left. rewrite <- app_assoc. apply after_here. eapply skipped_here; [exact Ha|destruct b; discriminate|exact Hn|].
    apply orb_true_iff. left. rewrite <- app_assoc. now apply name_here.
  - do 3 right. unfold parts_b. rewrite !orb_true_iff. left. left. left. rewrite <- app_assoc. apply after_here. eapply skipped_here; [exact Ha| |exact Hn|].
    + intros E. apply app_eq_nil in E as [_ E]. apply app_eq_nil in E as [_ E]. discriminate E.
    + apply orb_true_iff. right. rewrite <- !app_assoc. cbn [app]. rewrite item_here by assumption. now apply name_here.
  - do 3 right. unfold parts_b. rewrite !orb_true_iff. left. right. rewrite <- app_assoc. apply after_here. eapply skipped_here; [exact Ha|destruct b; discriminate|exact Hn|].
    rewrite <- app_assoc. now apply name_here.
Qed.

Lemma plain_b_ends : forall p s, plain_b (p ++ s) = true -> doubtful_b s = false.
Proof.
  induction p as [|c p IH]; intros s H; cbn [app plain_b] in H.
  - destruct s; cbn [plain_b] in H; apply andb_prop in H as [H _]; now apply negb_true_iff.
  - apply andb_prop in H as [_ H]. apply IH, H.
Qed.
Lemma plain_dec : forall t, plain_b t = true -> plain t.
Proof.
  intros t H. split; [intros x (p & q & ->) Hx|intros x (p & q & -> & Hq) Hx]; apply plain_b_ends in H.
  - rewrite doubtful_b_ok in H by exact Hx. discriminate.
  - rewrite doubtful_word_b_ok in H by assumption. discriminate.
Qed.

Theorem settled_all : forall t,
  (exists es, @formula nothing_known None t es /\ parses t (map ItEvent es)) \/
  (exists al g pre e, part g t /\ comes_to t al g pre /\ @fault anything al g e /\ shows (new_parser t) (pre, EndError e)) \/
  (exists al g pre, part g t /\ comes_to t al g pre /\ unsaid g).
Proof.
  intros t. destruct (decided t) as [[es G]|(al & g & pre & Hp & Hc & [[e He]|Hu])].
  - left. exists es. split; [exact G|apply pure_parses, G].
  - right. left. exists al, g, pre, e. repeat split; try assumption. eapply fault_there; eassumption.
  - right. right. exists al, g, pre. auto.
Qed.

Theorem plain_parses : forall t, plain t -> forall es, parses t (map ItEvent es) <-> @formula nothing_known None t es.
Proof. intros t H. apply settled_parses. intros g. apply plain_said, H. Qed.
Theorem plain_fails : forall t, plain t -> forall pre e, shows (new_parser t) (pre, EndError e) <->
  exists al g, part g t /\ comes_to t al g pre /\ @fault anything al g e.
Proof. intros t H. apply settled_fails. intros g. apply plain_said, H. Qed.
Theorem plain_ends : forall t, plain t -> exists es, shows (new_parser t) (es, EndDone) \/ exists e, shows (new_parser t) (es, EndError e).
Proof. intros t H. apply settled_ends. intros g. apply plain_said, H. Qed.
