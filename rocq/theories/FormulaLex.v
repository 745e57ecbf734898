(** * FormulaLex: the lexers on the texts of SpecFormula. *)

From Coq Require Import Ascii String List NArith ZArith Bool Lia Arith.
From Verif Require Import Base Float32 Event Tables Prim PrimTable Lex Macros Primitives
  SpecLex SpecNum LexFacts LexMore LexNum SpecFormula.
Import ListNotations.
Open Scope N_scope.
Open Scope list_scope.

Lemma trim_white : forall w s, white w -> trim_start (w ++ s) = trim_start s.
Proof.
  induction w as [|c w IH]; intros s H; [reflexivity|]. cbn in *. apply andb_prop in H as [H1 H2]. rewrite H1. apply IH, H2.
Qed.

Lemma trim_ink : forall s, not_next (fun c => is_ws c = true) s -> trim_start s = s.
Proof. intros [|c s] H; [reflexivity|]. cbn in *. destruct (is_ws c); [contradiction H; reflexivity|reflexivity]. Qed.

Lemma trim_to : forall w c s, white w -> is_ws c = false -> trim_start (w ++ c :: s) = c :: s.
Proof. intros w c s Hw Hc. rewrite trim_white by exact Hw. cbn. rewrite Hc. reflexivity. Qed.

Lemma strip_char_head : forall c s, strip_char c (c :: s) = Some s.
Proof. intros. apply strip_char_some. reflexivity. Qed.

Lemma no_starts : forall c s, is_ws c = false -> ~ starts c s -> strip_char c (trim_start s) = None.
Proof.
  intros c s Hc H. destruct (strip_char c (trim_start s)) as [r|] eqn:E; [|reflexivity]. exfalso. apply H.
  apply strip_char_some in E. destruct (trim_start_suffix s) as (p & Hp & Hw). exists p, r. rewrite Hp, E. auto.
Qed.

Lemma no_starts_head : forall c s, ~ starts c s -> match trim_start s with x :: _ => x <> c | [] => True end.
Proof.
  intros c s H. destruct (trim_start s) as [|x r] eqn:E; [exact I|]. intros ->. apply H.
  destruct (trim_start_suffix s) as (p & Hp & Hw). exists p, r. rewrite Hp at 1. rewrite E. auto.
Qed.

(** ** Control sequences *)

Lemma letter_alpha : forall c, is_alpha c = true <-> letter c.
Proof.
  intros c. unfold is_alpha, letter. rewrite orb_true_iff, !andb_true_iff, !N.leb_le. tauto.
Qed.

Lemma span_letters : forall cs r, Forall letter cs -> not_next letter r -> span_while is_alpha (cs ++ r) = (cs, r).
Proof.
  induction cs as [|c cs IH]; intros r H Hr.
  - destruct r as [|c r]; [reflexivity|]. cbn in *. destruct (is_alpha c) eqn:E; [|reflexivity]. apply letter_alpha in E. tauto.
  - inversion H; subst. cbn. apply letter_alpha in H2. rewrite H2, IH by assumption. reflexivity.
Qed.

Lemma control_rhs : forall cs t r, control cs t r -> exists t', t = 92 :: t' /\ rhs_control_sequence t' = (Ok cs, r).
Proof.
  intros cs t r (w & -> & Hw & Hr & H). eexists. split; [reflexivity|]. destruct H as [(Hn & Hl & Ha)|(c & -> & Hc)].
  - destruct cs as [|c cs]; [contradiction|]. inversion Hl; subst. cbn [app rhs_control_sequence].
    apply letter_alpha in H1. rewrite H1. change (c :: cs ++ w ++ r) with ((c :: cs) ++ w ++ r).
    rewrite span_letters by assumption. rewrite trim_white, trim_ink by assumption. reflexivity.
  - cbn [app rhs_control_sequence]. destruct (is_alpha c) eqn:E; [apply letter_alpha in E; contradiction|].
    rewrite trim_white, trim_ink by assumption. reflexivity.
Qed.

Lemma control_token : forall b cs t r, blank b -> control cs t r -> lex_token (b ++ t) = (Ok (TCs cs), r).
Proof.
  intros b cs t r Hb H. rewrite lex_token_blank by exact Hb. apply control_rhs in H as (t' & -> & H).
  unfold lex_token. cbn [skip_blank]. change (is_ws 92) with false. change (92 =? 37) with false. change (92 =? 92) with true.
  cbn [skip_blank]. rewrite H. reflexivity.
Qed.

Lemma control_length : forall cs t r, control cs t r -> (length r + 2 <= length t)%nat.
Proof.
  intros cs t r (w & -> & _ & _ & H). cbn [length]. rewrite !app_length.
  assert (1 <= length cs)%nat; [|lia]. destruct H as [(H & _)|(c & -> & _)]; [destruct cs; [contradiction|cbn; lia]|cbn; lia].
Qed.

Lemma char_token : forall b c r, blank b -> is_ws c = false -> c <> 37 -> c <> 92 ->
  lex_token (b ++ c :: r) = (Ok (TChr (c :: r)), r).
Proof.
  intros b c r Hb H1 H2 H3. rewrite lex_token_blank by exact Hb. unfold lex_token. cbn [skip_blank]. rewrite H1.
  apply N.eqb_neq in H2, H3. rewrite H2, H3. reflexivity.
Qed.

Lemma blank_token_end : forall b, blank b -> lex_token b = (Err EToken, []).
Proof. intros b H. rewrite <- (app_nil_r b), lex_token_blank by exact H. reflexivity. Qed.

Lemma comment_token_end : forall b t, blank b -> ~ In 10 t -> lex_token (b ++ 37 :: t) = (Err EToken, []).
Proof.
  intros b t H Ht. rewrite lex_token_blank by exact H. unfold lex_token. cbn [skip_blank]. change (is_ws 37) with false. cbn [N.eqb Pos.eqb].
  assert (E : skip_blank true t = []).
  { clear H. induction t as [|c t IH]; [reflexivity|]. cbn [skip_blank].
    destruct (N.eqb_spec c 10) as [->|Hc]; [exfalso; apply Ht; left; reflexivity|]. apply IH. intros H. apply Ht. right. exact H. }
  rewrite E. reflexivity.
Qed.

Lemma special_false : forall c, special c = false ->
  is_ws c = false /\ c <> 92 /\ c <> 37 /\ c <> 95 /\ c <> 94 /\ c <> 36 /\ c <> 35 /\ c <> 38 /\ c <> 123 /\ c <> 125 /\ is_digit c = false.
Proof.
  intros c H. unfold special in H. apply orb_false_iff in H as [H H3]. apply orb_false_iff in H as [H1 H2].
  split; [exact H3|]. unfold is_digit. unfold digit_char in H2. rewrite H2. cbn [existsb] in H1.
  repeat apply orb_false_iff in H1 as [?H H1]. rewrite !N.eqb_neq in *. repeat split; assumption.
Qed.

(** ** Characters *)

Lemma find_assoc : forall c l, (find (fun p : char * event => fst p =? c) l = None) ->
  forall x e, In (x, e) l -> x <> c.
Proof.
  intros c l H x e Hin ->. apply (find_none _ _ H) in Hin. cbn in Hin. rewrite N.eqb_refl in Hin. discriminate.
Qed.

Lemma ascii_table : Forall (fun p => char_event (fst p) = snd p) ascii_meaning.
Proof. unfold ascii_meaning. repeat (constructor; [vm_compute; reflexivity|]). constructor. Qed.

Lemma char_event_meaning : forall c, char_event c = char_meaning c.
Proof.
  intros c. unfold char_meaning. destruct (find _ _) as [[x e]|] eqn:E.
  - apply find_some in E as [H1 H2]. cbn in H2. apply N.eqb_eq in H2. subst x.
    exact (proj1 (Forall_forall _ _) ascii_table _ H1).
  - assert (H : forall x, In x (map fst ascii_meaning) -> x <> c).
    { intros x Hx. apply in_map_iff in Hx as ([y e] & <- & Hin). exact (find_assoc _ _ E _ _ Hin). }
    assert (H1 : c <> 126) by (intros ->; apply (H 126); [vm_compute; tauto|reflexivity]).
    assert (H2 : c <> 46) by (intros ->; apply (H 46); [vm_compute; tauto|reflexivity]).
    assert (H3 : c <> 44) by (intros ->; apply (H 44); [vm_compute; tauto|reflexivity]).
    assert (H4 : c <> 59) by (intros ->; apply (H 59); [vm_compute; tauto|reflexivity]).
    assert (H5 : c <> 39) by (intros ->; apply (H 39); [vm_compute; tauto|reflexivity]).
    assert (H6 : c <> 45) by (intros ->; apply (H 45); [vm_compute; tauto|reflexivity]).
    assert (H7 : c <> 42) by (intros ->; apply (H 42); [vm_compute; tauto|reflexivity]).
    apply N.eqb_neq in H1, H2, H3, H4, H5, H6, H7. unfold char_event. rewrite H1, H2, H3, H4, H5, H6, H7. cbn [orb].
    destruct (is_binary c); [reflexivity|]. destruct (is_relation c); [reflexivity|]. unfold char_delimiter_map.
    destruct (assoc_char c char_delims) as [[]|]; reflexivity.
Qed.

(** ** Numbers *)

Lemma digit_is : forall c, digit c <-> is_digit c = true.
Proof. intros c. unfold digit, is_digit. rewrite andb_true_iff, !N.leb_le. tauto. Qed.

Lemma numeric_is : forall c, numeric c <-> is_numeral c = true.
Proof. intros c. unfold numeric, is_numeral. rewrite !orb_true_iff, !N.eqb_eq, digit_is. tauto. Qed.

Lemma span_numeric : forall n r, Forall numeric n -> not_next numeric r -> span_while is_numeral (n ++ r) = (n, r).
Proof.
  induction n as [|c n IH]; intros r H Hr.
  - destruct r as [|c r]; [reflexivity|]. cbn in *. destruct (is_numeral c) eqn:E; [|reflexivity]. apply numeric_is in E. tauto.
  - inversion H; subst. cbn. apply numeric_is in H2. rewrite H2, IH by assumption. reflexivity.
Qed.

Lemma ends_with_last : forall x m c, ends_with_char x (m ++ [c]) = (c =? x).
Proof.
  intros x m c. induction m as [|y m IH]; [reflexivity|]. cbn [app ends_with_char]. rewrite IH. destruct m; reflexivity.
Qed.

Lemma numeral_number : forall n r, number n -> after_number n r -> numeral false (n ++ r) = n.
Proof.
  intros n r (H1 & (c & m & -> & Hc)) Hr. cbn [app numeral].
  inversion H1; subst. destruct Hr as [((d & m' & E & Hd) & Hr)|(p & r' & Hp & -> & Hr)].
  - rewrite span_numeric by assumption. cbn [fst]. rewrite E, !ends_with_last.
    assert (d <> 46 /\ d <> 44) as [Ha Hb] by (unfold digit in Hd; lia). apply N.eqb_neq in Ha, Hb. rewrite Ha, Hb. reflexivity.
  - replace (m ++ p :: r') with ((m ++ [p]) ++ r') by (rewrite <- app_assoc; reflexivity).
    rewrite span_numeric; [|apply Forall_app; split; [assumption|constructor; [unfold numeric; tauto|constructor]]|assumption].
    cbn [fst]. change (c :: m ++ [p]) with ((c :: m) ++ [p]). rewrite !ends_with_last.
    assert (Hx : (p =? 46) || (p =? 44) = true) by (destruct Hp as [->| ->]; reflexivity). rewrite Hx. apply removelast_last.
Qed.

(** ** Delimiters *)

Lemma char_delims_ok : forall c ty, In (c, ty) char_delims ->
  char_delimiter_map c = Some (c, ty) /\ is_ws c = false /\ c <> 37 /\ c <> 92.
Proof.
  assert (H : Forall (fun p => char_delimiter_map (fst p) = Some p /\ is_ws (fst p) = false /\ fst p <> 37 /\ fst p <> 92) char_delims).
  { unfold char_delims. repeat (constructor; [vm_compute; repeat split; congruence|]). constructor. }
  intros c ty Hin. exact (proj1 (Forall_forall _ _) H _ Hin).
Qed.

Lemma cs_delims_ok : forall cs d, In (cs, d) cs_delims -> control_sequence_delimiter_map cs = Some d.
Proof.
  assert (H : Forall (fun p => control_sequence_delimiter_map (fst p) = Some (snd p)) cs_delims).
  { unfold cs_delims. repeat (constructor; [vm_compute; reflexivity|]). constructor. }
  intros cs d Hin. exact (proj1 (Forall_forall _ _) H _ Hin).
Qed.

Lemma delimiter_read : forall s c ty r, delimiter s c ty r -> lex_delimiter s = (Ok (c, ty), r) /\ (length r < length s)%nat.
Proof.
  intros s c ty r H. destruct H as [b c ty r Hb Hin|b cs t c ty r Hb Hc Hin]; unfold lex_delimiter, bind.
  - apply char_delims_ok in Hin as (H1 & H2 & H3 & H4). rewrite char_token by assumption. cbn [token_to_delim ctx_char]. rewrite H1.
    split; [reflexivity|]. rewrite app_length. cbn [length]. lia.
  - rewrite (control_token b cs t r) by assumption. cbn [token_to_delim]. rewrite (cs_delims_ok _ _ Hin).
    split; [reflexivity|]. apply control_length in Hc. rewrite app_length. lia.
Qed.

(** ** Lines and limits *)

Lemma strip_none : forall p s, (forall w r, white w -> s <> w ++ p ++ r) ->
  strip_prefix p (trim_start s) = None.
Proof.
  intros p s H. destruct (strip_prefix p (trim_start s)) as [r|] eqn:E; [|reflexivity]. exfalso.
  apply strip_prefix_some in E. destruct (trim_start_suffix s) as (w & Hs & Hw). apply (H w r Hw). rewrite Hs, E. reflexivity.
Qed.

Lemma strip_word : forall w p s, white w -> is_ws (hd 0 p) = false -> p <> [] ->
  strip_prefix p (trim_start (w ++ p ++ s)) = Some s.
Proof.
  intros w p s Hw Hp Hn. rewrite trim_white by exact Hw. destruct p as [|c p]; [contradiction|]. cbn [hd] in Hp.
  cbn [app trim_start]. rewrite Hp. apply (strip_prefix_app (c :: p)).
Qed.

Lemma strip_other : forall w p q s, white w -> is_ws (hd 0 q) = false -> q <> [] -> differ p q = true ->
  strip_prefix p (trim_start (w ++ q ++ s)) = None.
Proof.
  intros w p q s Hw Hq Hn Hd. rewrite trim_white by exact Hw. destruct q as [|c q]; [contradiction|]. cbn [hd] in Hq.
  cbn [app trim_start]. rewrite Hq. destruct (strip_prefix p (c :: q ++ s)) as [r|] eqn:E; [|reflexivity]. exfalso.
  apply strip_prefix_some in E. apply (differ_prefix p (c :: q) s Hd). exists r. exact E.
Qed.

Lemma lines_read : forall s ls r, lines s ls r -> forall f, (length s < f)%nat -> hlines_loop f s = (ls, r).
Proof.
  induction 1 as [s H|w s ls r Hw H IH|w s ls r Hw H IH]; intros [|f] Hf; try lia; cbn [hlines_loop].
  - change (lit "\hline") with hline. change (lit "\hdashline") with hdashline. rewrite (strip_none hline), (strip_none hdashline); [reflexivity| |]; intros w r Hw; apply (H w r Hw).
  - change (lit "\hline") with hline. rewrite strip_word by (try exact Hw; vm_compute; congruence).
    rewrite IH; [reflexivity|]. rewrite !app_length in Hf. cbn in Hf. lia.
  - change (lit "\hline") with hline. change (lit "\hdashline") with hdashline.
    rewrite strip_other by (try exact Hw; vm_compute; congruence). rewrite strip_word by (try exact Hw; vm_compute; congruence).
    rewrite IH; [reflexivity|]. rewrite !app_length in Hf. cbn in Hf. lia.
Qed.

Lemma lines_suffix : forall s ls r, lines s ls r -> (length r <= length s)%nat.
Proof. induction 1; rewrite ?app_length; lia. Qed.

Lemma lines_lexer : forall s ls r, lines s ls r -> horizontal_lines s = (Ok ls, r).
Proof. intros s ls r H. unfold horizontal_lines. rewrite (lines_read _ _ _ H) by lia. reflexivity. Qed.

Definition pos_of (o : option bool) (p : script_pos) : script_pos :=
  match o with Some true => SPAboveBelow | Some false => SPRight | None => p end.

Lemma modifiers_loop : forall p s p' r, modifiers p s p' r -> forall f o q, (length s < f)%nat -> p = pos_of o q ->
  exists o', limit_loop f o s = (o', r) /\ p' = pos_of o' q.
Proof.
  induction 1 as [p s H|p w s p' r Hw H IH|p w s p' r Hw H IH]; intros [|f] o q Hf Hp; try lia; cbn [limit_loop].
  - rewrite (strip_none (lit "\limits")), (strip_none (lit "\nolimits")); [exists o; auto| |]; intros w r Hw; apply (H w r Hw).
  - rewrite strip_word by (try exact Hw; vm_compute; congruence). apply IH; [|reflexivity].
    rewrite !app_length in Hf. change (length (lit "\limits")) with 7%nat in Hf. lia.
  - rewrite strip_other by (try exact Hw; vm_compute; congruence). rewrite strip_word by (try exact Hw; vm_compute; congruence).
    apply IH; [|reflexivity]. rewrite !app_length in Hf. change (length (lit "\nolimits")) with 9%nat in Hf. lia.
Qed.

Lemma modifiers_lexer : forall p s p' r, modifiers p s p' r ->
  exists o, limit_modifiers s = (Ok o, r) /\ p' = pos_of o p.
Proof.
  intros p s p' r H. destruct (modifiers_loop _ _ _ _ H (S (length s)) None p (Nat.lt_succ_diag_r _) eq_refl) as (o & H1 & H2).
  exists o. unfold limit_modifiers. rewrite H1. auto.
Qed.

(** ** Arguments *)

Lemma brace_group : forall g r, balanced 123 125 g -> group_content GKNormal (g ++ 125 :: r) = (Ok g, r).
Proof. intros g r H. apply (group_content_balanced GKNormal 123 125); [left; auto|auto]. Qed.

Lemma bracket_group : forall g r, balanced 91 93 g -> group_content GKOptional (g ++ 93 :: r) = (Ok g, r).
Proof. intros g r H. apply (group_content_balanced GKOptional 91 93); [right; auto|auto]. Qed.

Lemma braced_argument : forall w g r, white w -> balanced 123 125 g ->
  lex_argument (w ++ 123 :: g ++ 125 :: r) = (Ok (AGroup g), r).
Proof.
  intros w g r Hw Hg. unfold lex_argument. rewrite trim_to by (try exact Hw; reflexivity). rewrite strip_char_head.
  unfold bind. rewrite brace_group by exact Hg. reflexivity.
Qed.

Lemma token_argument : forall s t r, ~ starts 123 s -> lex_token s = (Ok t, r) -> lex_argument s = (Ok (AToken t), r).
Proof. intros s t r H Ht. unfold lex_argument. rewrite no_starts by (try exact H; reflexivity). unfold bind. rewrite Ht. reflexivity. Qed.

Lemma no_option : forall s, ~ starts 91 s -> optional_argument s = (Ok None, s).
Proof. intros s H. unfold optional_argument. rewrite no_starts by (try exact H; reflexivity). reflexivity. Qed.

Lemma some_option : forall w g r, white w -> balanced 91 93 g -> optional_argument (w ++ 91 :: g ++ 93 :: r) = (Ok (Some g), r).
Proof.
  intros w g r Hw Hg. unfold optional_argument. rewrite trim_to by (try exact Hw; reflexivity). rewrite strip_char_head.
  rewrite bracket_group by exact Hg. reflexivity.
Qed.

(** ** Dimensions *)

Lemma fraction_space : forall sg ds p fs ws u d rest,
  Forall sign sg -> digits ds -> digits fs -> p = 46 \/ p = 44 ->
  (decimal_of ds < 2 ^ 24)%Z -> (decimal_of fs < 2 ^ 24)%Z -> (length fs <= 7)%nat ->
  forallb is_ws ws = true -> In (u, d) units ->
  lex_dimension (sg ++ ds ++ p :: fs ++ ws ++ u ++ 32 :: rest) =
  (Ok (mkDim (f32_mul (f32_of_Z (if negative sg then -1 else 1)%Z)
        (f32_add (f32_of_Z (decimal_of ds))
           (f32_div (f32_of_Z (decimal_of fs)) (f32_of_Z (10 ^ Z.of_nat (length fs)))))) d), rest).
Proof.
  intros sg ds p fs ws u d rest Hsg Hds Hfs Hp Hlt Hltf Hlen Hws Hu. unfold lex_dimension, bind at 1.
  rewrite fp_fraction; try assumption.
  - unfold bind at 1. rewrite (unit_read ws u d (32 :: rest) Hws Hu). reflexivity.
  - pose proof (ws_unit_head ws u d (32 :: rest) Hws Hu) as H. destruct (ws ++ u ++ 32 :: rest); [exact I|]. cbn in H |- *.
    intros Hd. apply H. right; right. exact Hd.
Qed.

Lemma dimension_read : forall t d s r, dimension_text t d -> not_next (fun c => is_ws c = true) r -> s = r \/ s = 32 :: r ->
  lex_dimension (t ++ s) = (Ok d, r).
Proof.
  intros t d s r H Hr Hs. destruct H as [sg ds w u un H1 H2 H3 H4 H5 H6|sg ds p fs w u un H1 H2 H3 H4 H5 H6 H7 H8 H9].
  - rewrite <- !app_assoc. destruct (dimension_integer sg ds w u un r H1 H2 H3 H4 H5 H6 Hr) as [Ha Hb]. destruct Hs as [->| ->]; assumption.
  - rewrite <- !app_assoc. cbn [app]. rewrite <- !app_assoc. destruct Hs as [->| ->].
    + apply dimension_fraction; assumption.
    + apply fraction_space; assumption.
Qed.

(** With any white space character after it. *)
Lemma dimension_spaced : forall t d s r, dimension_text t d -> spaced s r -> lex_dimension (t ++ s) = (Ok d, r).
Proof.
  intros t d s r H [[-> Hr]|(c & Hc & Hl & ->)]; [apply dimension_read; auto|].
  assert (Ho : forall A (x : A), (do _ <- one_optional_space ; ret x) (c :: r) = (Ok x, r)).
  { intros A x. unfold bind, one_optional_space. rewrite Hc. replace (clen c =? 1) with true; [reflexivity|]. unfold clen.
    symmetry. apply N.ltb_lt in Hl. rewrite Hl. reflexivity. }
  destruct H as [sg ds w u un H1 H2 H3 H4 H5 H6|sg ds p fs w u un H1 H2 H3 H4 H5 H6 H7 H8 H9].
  - rewrite <- !app_assoc. unfold lex_dimension, bind at 1. rewrite fp_integer by (auto using digits_not_sign; eapply ws_unit_head; eassumption).
    unfold bind at 1. rewrite (unit_read w u un (c :: r) H5 H6), Ho. reflexivity.
  - rewrite <- !app_assoc. cbn [app]. rewrite <- !app_assoc. unfold lex_dimension, bind at 1. rewrite fp_fraction; try assumption.
    + unfold bind at 1. rewrite (unit_read w u un (c :: r) H8 H9), Ho. reflexivity.
    + pose proof (ws_unit_head w u un (c :: r) H8 H9) as H. destruct (w ++ u ++ c :: r); [exact I|]. cbn in H |- *.
      intros Hd. apply H. right; right. exact Hd.
Qed.

(** A text in which no character is special is balanced. *)
Lemma plain_balanced : forall o c t, Forall (fun x => x <> 92 /\ x <> 37 /\ x <> o /\ x <> c) t -> balanced o c t.
Proof. intros o c. induction 1 as [|x t (H1 & H2 & H3 & H4) _ IH]; constructor; assumption. Qed.

Lemma units_plain : forall u d, In (u, d) units -> Forall (fun x => 97 <= x <= 122) u /\ u <> [].
Proof.
  assert (H : Forall (fun p => Forall (fun x => 97 <= x <= 122) (fst p) /\ fst p <> []) units).
  { unfold units. repeat (constructor; [cbn; split; [repeat constructor; vm_compute; congruence|discriminate]|]). constructor. }
  intros u d Hin. exact (proj1 (Forall_forall _ _) H _ Hin).
Qed.

Lemma ws_plain : forall c, is_ws c = true -> c <> 92 /\ c <> 37 /\ c <> 91 /\ c <> 93 /\ c <> 123 /\ c <> 125.
Proof. intros c H. repeat split; intros ->; vm_compute in H; discriminate. Qed.

Definition plain_char (c : char) : Prop := c <> 92 /\ c <> 37 /\ c <> 91 /\ c <> 93 /\ c <> 123 /\ c <> 125.

Lemma sign_plain : forall sg, Forall sign sg -> Forall plain_char sg.
Proof. intros sg H. eapply Forall_impl; [|exact H]. intros c [->|[->|Hc]]; [repeat split; discriminate|repeat split; discriminate|apply ws_plain, Hc]. Qed.
Lemma digits_plain : forall ds, digits ds -> Forall plain_char ds.
Proof. intros ds H. eapply Forall_impl; [|exact H]. intros c Hc. unfold digit in Hc. repeat split; lia. Qed.
Lemma white_plain : forall w, white w -> Forall plain_char w.
Proof. intros w H. apply Forall_forall. intros c Hc. apply ws_plain. unfold white in H. rewrite forallb_forall in H. apply H, Hc. Qed.
Lemma unit_plain : forall u d, In (u, d) units -> Forall plain_char u.
Proof. intros u d H. apply units_plain in H as [H _]. eapply Forall_impl; [|exact H]. cbn. intros c Hc. repeat split; lia. Qed.

Lemma dimension_text_chars : forall t d, dimension_text t d -> 
  Forall (fun c => c <> 92 /\ c <> 37 /\ c <> 91 /\ c <> 93 /\ c <> 123 /\ c <> 125) t.
Proof.
  intros t d H. destruct H as [sg ds w u un H1 H2 H3 H4 H5 H6|sg ds p fs w u un H1 H2 H3 H4 H5 H6 H7 H8 H9].
  - rewrite !Forall_app. repeat split; [apply sign_plain|apply digits_plain|apply white_plain|eapply unit_plain]; eassumption.
  - rewrite !Forall_app. split; [apply sign_plain; assumption|]. split; [apply digits_plain; assumption|].
    constructor; [destruct H4 as [->| ->]; repeat split; discriminate|]. rewrite !Forall_app.
    repeat split; [apply digits_plain|apply white_plain|eapply unit_plain]; eassumption.
Qed.

Lemma dimension_text_balanced : forall t d, dimension_text t d -> balanced 91 93 t.
Proof.
  intros t d H. apply plain_balanced. eapply Forall_impl; [|exact (dimension_text_chars _ _ H)]. cbn. intros c Hc. tauto.
Qed.

Lemma trim_not_brace : forall t s, t <> [] -> Forall (fun c => c <> 123) t -> (exists c, In c t /\ is_ws c = false) ->
  strip_char 123 (trim_start (t ++ s)) = None.
Proof.
  induction t as [|c t IH]; intros s Hn H Hx; [contradiction|]. cbn [app trim_start]. inversion H; subst.
  destruct (is_ws c) eqn:E.
  - destruct Hx as (x & [->|Hx] & Hw); [congruence|]. apply IH; [|assumption|eauto]. destruct t; [contradiction|discriminate].
  - cbn [strip_char]. apply N.eqb_neq in H2. rewrite N.eqb_sym, H2 || rewrite H2. reflexivity.
Qed.

Lemma digit_no_ws : forall c, digit c -> is_ws c = false.
Proof.
  intros c H. unfold digit in H. unfold is_ws.
  repeat match goal with |- context [?a <=? ?b] => destruct (N.leb_spec a b); try lia
    | |- context [?a =? ?b] => destruct (N.eqb_spec a b); try lia end; reflexivity.
Qed.

Lemma dimension_text_visible : forall t d, dimension_text t d -> t <> [] /\ exists c, In c t /\ is_ws c = false.
Proof.
  intros t d H. assert (Hx : exists c, In c t /\ is_ws c = false).
  { destruct H as [sg ds w u un H1 H2 H3 H4 H5 H6|sg ds p fs w u un H1 H2 H3 H4 H5 H6 H7 H8 H9].
    - destruct ds as [|c ds]; [contradiction|]. exists c. split; [rewrite in_app_iff; right; left; reflexivity|]. inversion H2; subst. apply digit_no_ws. assumption.
    - exists p. split; [rewrite !in_app_iff; right; right; left; reflexivity|]. destruct H4 as [->| ->]; reflexivity. }
  split; [|exact Hx]. destruct Hx as (c & Hc & _). intros ->. destruct Hc.
Qed.

Lemma not_braced : forall A (l : lexer A) t d s, dimension_text t d -> or_braced l (t ++ s) = l (t ++ s).
Proof.
  intros A l t d s H. unfold or_braced, bind, get. destruct (dimension_text_visible _ _ H) as [H1 H2]. rewrite trim_not_brace; [reflexivity|exact H1| |exact H2].
  eapply Forall_impl; [|exact (dimension_text_chars _ _ H)]. cbn. intros c Hc. tauto.
Qed.

Lemma kern_read : forall t d s r, dimension_text t d -> spaced s r -> dimension_or_braced (t ++ s) = (Ok d, r).
Proof. intros t d s r H Hs. unfold dimension_or_braced. rewrite (not_braced _ _ _ _ _ H). exact (dimension_spaced _ _ _ _ H Hs). Qed.

Lemma no_stretch_part : forall kw r, kw = lit "plus" \/ kw = lit "minus" -> no_stretch r -> not_next (fun c => is_ws c = true) r ->
  glue_part kw r = (Ok None, r).
Proof.
  intros kw r Hk Hn Hr. unfold glue_part, bind, get.
  assert (E : trim_start r = r). { destruct r as [|c r]; [reflexivity|]. cbn in Hr |- *. destruct (is_ws c); [contradiction Hr; reflexivity|reflexivity]. }
  rewrite E. destruct (strip_prefix kw r) as [x|] eqn:Es; [|reflexivity]. apply strip_prefix_some in Es. destruct (Hn x) as [H1 H2].
  destruct Hk as [->| ->]; contradiction.
Qed.

Lemma glue_read : forall t d s r, dimension_text t d -> spaced s r -> not_next (fun c => is_ws c = true) r /\ no_stretch r ->
  lex_glue (t ++ s) = (Ok (d, None, None), r).
Proof.
  intros t d s r H Hs [Hr Hn]. unfold lex_glue, bind. rewrite (dimension_spaced _ _ _ _ H Hs).
  rewrite (no_stretch_part (lit "plus")) by auto. rewrite (no_stretch_part (lit "minus")) by auto. reflexivity.
Qed.

Lemma hskip_read : forall t d s r, dimension_text t d -> spaced s r -> not_next (fun c => is_ws c = true) r /\ no_stretch r ->
  glue_or_braced (t ++ s) = (Ok (d, None, None), r).
Proof. intros t d s r H Hs Hn. unfold glue_or_braced. rewrite (not_braced _ _ _ _ _ H). exact (glue_read _ _ _ _ H Hs Hn). Qed.

Lemma trim_all : forall z, white z -> trim_start z = [].
Proof. induction z as [|c z IH]; intros H; [reflexivity|]. unfold white in H. cbn [forallb] in H. apply andb_prop in H as [H1 H2]. cbn. rewrite H1. apply IH, H2. Qed.

(** Nothing but white space after it. *)
Lemma glue_trailing : forall t d y z, dimension_text t d -> spaced y z -> white z -> lex_glue (t ++ y) = (Ok (d, None, None), z).
Proof.
  intros t d y z H Hs Hz. unfold lex_glue, bind. rewrite (dimension_spaced _ _ _ _ H Hs). assert (E : forall kw, kw <> [] -> glue_part kw z = (Ok None, z)).
  { intros kw Hk. unfold glue_part, bind, get. rewrite (trim_all _ Hz). destruct kw; [contradiction|reflexivity]. }
  rewrite !E by discriminate. reflexivity.
Qed.

Lemma dimension_alone : forall t d, dimension_text t d -> lex_dimension t = (Ok d, []).
Proof. intros t d H. rewrite <- (app_nil_r t). eapply dimension_read; [exact H|exact I|auto]. Qed.

Lemma glue_alone : forall t d, dimension_text t d -> lex_glue t = (Ok (d, None, None), []).
Proof.
  intros t d H. rewrite <- (app_nil_r t). eapply glue_read; [exact H|left; split; [reflexivity|exact I]|]. split; [exact I|]. intros r. split; discriminate.
Qed.

Lemma dimension_text_braces : forall t d, dimension_text t d -> balanced 123 125 t.
Proof. intros t d H. apply plain_balanced. eapply Forall_impl; [|exact (dimension_text_chars _ _ H)]. cbn. intros c Hc. tauto. Qed.

Lemma braced_read : forall A (l : lexer A) w t a r, white w -> balanced 123 125 t -> l t = (Ok a, []) ->
  or_braced l (w ++ 123 :: t ++ 125 :: r) = (Ok a, r).
Proof.
  intros A l w t a r Hw Hb Hl. unfold or_braced, bind, get. rewrite trim_to by (try exact Hw; reflexivity). rewrite strip_char_head.
  unfold brace_argument. rewrite trim_to by (try exact Hw; reflexivity). rewrite strip_char_head, brace_group by exact Hb.
  unfold run_on. rewrite Hl. reflexivity.
Qed.

Lemma braced_then : forall A (l : lexer A) w t a z r, white w -> balanced 123 125 t -> l t = (Ok a, z) -> white z ->
  or_braced l (w ++ 123 :: t ++ 125 :: r) = (Ok a, r).
Proof.
  intros A l w t a z r Hw Hb Hl Hz. unfold or_braced, bind, get. rewrite trim_to by (try exact Hw; reflexivity). rewrite strip_char_head.
  unfold brace_argument. rewrite trim_to by (try exact Hw; reflexivity). rewrite strip_char_head, brace_group by exact Hb.
  unfold run_on. rewrite Hl. cbn [snd]. rewrite (trim_all _ Hz). reflexivity.
Qed.

Lemma trailing_chars : forall y, trailing y -> white y.
Proof.
  intros y (z & [[-> _]|(c & Hc & _ & ->)] & Hz); [exact Hz|]. unfold white. cbn [forallb]. rewrite Hc. exact Hz.
Qed.

Lemma length_braces : forall x y d, dimension_text x d -> trailing y -> balanced 123 125 (x ++ y).
Proof.
  intros x y d Hd Hy. apply plain_balanced. rewrite Forall_app. split; (eapply Forall_impl; [|first [exact (dimension_text_chars _ _ Hd)|exact (white_plain _ (trailing_chars _ Hy))]]);
    unfold plain_char; cbn; intros c Hc; tauto.
Qed.

(** ** Stretchable lengths *)

Lemma trim_solid : forall r, not_next (fun c => is_ws c = true) r -> trim_start r = r.
Proof. intros [|c r] H; [reflexivity|]. cbn in H |- *. destruct (is_ws c); [contradiction H; reflexivity|reflexivity]. Qed.

Lemma trim_split : forall s, exists w, white w /\ s = w ++ trim_start s.
Proof.
  induction s as [|c s IH]; [exists []; split; reflexivity|]. cbn [trim_start]. destruct (is_ws c) eqn:E; [|exists []; split; reflexivity].
  destruct IH as (w & Hw & IH). exists (c :: w). split; [unfold white; cbn [forallb]; rewrite E; exact Hw|]. cbn [app]. congruence.
Qed.

Lemma goes_strip : forall kw s x, kw = lit "plus" \/ kw = lit "minus" -> goes_on kw s x -> strip_prefix kw (trim_start s) = Some x.
Proof.
  intros kw s x Hk (w & Hw & ->). replace (trim_start (w ++ kw ++ x)) with (kw ++ x) by (destruct Hk as [->| ->]; symmetry; apply trim_to; (exact Hw || reflexivity)).
  apply strip_prefix_app.
Qed.
Lemma stays_strip : forall kw s, (forall x, ~ goes_on kw s x) -> strip_prefix kw (trim_start s) = None.
Proof.
  intros kw s H. destruct (strip_prefix kw (trim_start s)) as [x|] eqn:E; [|reflexivity]. exfalso. apply strip_prefix_some in E.
  destruct (trim_split s) as (w & Hw & Es). apply (H x). exists w. split; [exact Hw|congruence].
Qed.

Lemma stretch_read : forall kw s p r, kw = lit "plus" \/ kw = lit "minus" -> stretch kw s p r -> glue_part kw s = (Ok p, r).
Proof.
  intros kw s p r Hk [s0 H|s0 x d y r0 H Hd Hs]; unfold glue_part, bind, get.
  - rewrite (stays_strip _ _ H). reflexivity.
  - rewrite (goes_strip _ _ _ Hk H). unfold put. rewrite (dimension_spaced _ _ _ _ Hd Hs). reflexivity.
Qed.

Lemma stretched_read : forall s d p m r, glue_text s d p m r -> lex_glue s = (Ok (d, p, m), r).
Proof.
  intros s d p m r [x d0 s0 s1 p0 s2 m0 r0 Hx Hs Hp Hm]. unfold lex_glue, bind.
  rewrite (dimension_spaced _ _ _ _ Hx Hs), (stretch_read _ _ _ _ (or_introl eq_refl) Hp), (stretch_read _ _ _ _ (or_intror eq_refl) Hm). reflexivity.
Qed.

Lemma stretched_hskip : forall s d p m r, glue_text s d p m r -> glue_or_braced s = (Ok (d, p, m), r).
Proof.
  intros s d p m r H. rewrite <- (stretched_read _ _ _ _ _ H). destruct H as [x d0 s0 s1 p0 s2 m0 r0 Hx Hs Hp Hm]. exact (not_braced _ _ _ _ _ Hx).
Qed.

Lemma spaced_white : forall s r, spaced s r -> exists v, white v /\ s = v ++ r.
Proof. intros s r [[-> _]|(c & Hc & _ & ->)]; [exists []; split; reflexivity|]. exists [c]. split; [unfold white; cbn [forallb]; rewrite Hc|]; reflexivity. Qed.
Lemma stretch_rest : forall kw s p r, stretch kw s p r -> exists v, s = v ++ r.
Proof.
  intros kw s p r [s0 H|s0 x d y r0 (w & _ & ->) Hd Hs]; [exists []; reflexivity|]. apply spaced_white in Hs as (v & _ & ->). exists (w ++ kw ++ x ++ v). rewrite <- !app_assoc. reflexivity.
Qed.
Lemma glue_text_split : forall s d p m r, glue_text s d p m r -> exists v, s = v ++ r.
Proof.
  intros s d p m r [x d0 s0 s1 p0 s2 m0 r0 Hx Hs Hp Hm]. apply spaced_white in Hs as (v1 & _ & ->). apply stretch_rest in Hp as (v2 & ->). apply stretch_rest in Hm as (v3 & ->).
  exists (x ++ v1 ++ v2 ++ v3). rewrite <- !app_assoc. reflexivity.
Qed.
Lemma glue_text_rest : forall s d p m r, glue_text s d p m r -> (List.length r <= List.length s)%nat.
Proof. intros s d p m r H. apply glue_text_split in H as (v & ->). rewrite app_length. lia. Qed.

(** A length in braces that is wrong. *)
Lemma braced_wrong : forall A (l : lexer A) w t e r r', white w -> balanced 123 125 t -> l t = (Err e, r') ->
  or_braced l (w ++ 123 :: t ++ 125 :: r) = (Err e, r).
Proof.
  intros A l w t e r r' Hw Hb Hl. unfold or_braced, bind, get. rewrite trim_to by (try exact Hw; reflexivity). rewrite strip_char_head.
  unfold brace_argument. rewrite trim_to by (try exact Hw; reflexivity). rewrite strip_char_head, brace_group by exact Hb.
  unfold run_on. rewrite Hl. reflexivity.
Qed.

Lemma braced_long : forall A (l : lexer A) w t a z r, white w -> balanced 123 125 t -> l t = (Ok a, z) ->
  ~ white z -> or_braced l (w ++ 123 :: t ++ 125 :: r) = (Err EDimensionArgument, r).
Proof.
  intros A l w t a z r Hw Hb Hl Hz. unfold or_braced, bind, get. rewrite trim_to by (try exact Hw; reflexivity). rewrite strip_char_head.
  unfold brace_argument. rewrite trim_to by (try exact Hw; reflexivity). rewrite strip_char_head, brace_group by exact Hb.
  unfold run_on. rewrite Hl. cbn [snd]. destruct (trim_start z) eqn:E; [|reflexivity]. exfalso. apply Hz. clear -E.
  induction z as [|c z IH]; [reflexivity|]. cbn in E. destruct (is_ws c) eqn:Ec; [|discriminate]. unfold white. cbn [forallb]. rewrite Ec. apply IH, E.
Qed.

(** ** Integers *)

Lemma fold_decimal_mono : forall ds acc, digits ds -> (acc <= fold_left (fun z c => (10 * z + (Z.of_N c - 48))%Z) ds acc)%Z \/ (acc < 0)%Z.
Proof.
  induction ds as [|c ds IH]; intros acc H; cbn [fold_left]; [left; lia|]. inversion H as [|? ? Hc Hd]; subst. unfold digit in Hc.
  destruct (Z.ltb_spec acc 0); [right; assumption|]. left. destruct (IH (10 * acc + (Z.of_N c - 48))%Z Hd); lia.
Qed.

Lemma fold_decimal : forall ds acc p, digits ds -> fold_left (fun z c => (10 * z + (Z.of_N c - 48))%Z) ds (Z.of_N acc) = Z.of_N p ->
  p < usize_limit -> fold_digits 10 acc (map digit_val ds) = Some p.
Proof.
  induction ds as [|c ds IH]; intros acc p H E Hp; cbn [fold_left map fold_digits] in *; [f_equal; lia|].
  inversion H as [|? ? Hc Hd]; subst. unfold digit in Hc.
  assert (E1 : (10 * Z.of_N acc + (Z.of_N c - 48))%Z = Z.of_N (acc * 10 + digit_val c)) by (unfold digit_val; lia). rewrite E1 in E.
  destruct (fold_decimal_mono ds (Z.of_N (acc * 10 + digit_val c)) Hd) as [Hm|Hm]; [|lia].
  assert (Hl : acc * 10 + digit_val c <? usize_limit = true) by (apply N.ltb_lt; lia). rewrite Hl. apply IH; assumption.
Qed.

Lemma digits_span : forall ds r, digits ds -> not_next digit r -> span_while is_digit (ds ++ r) = (ds, r).
Proof.
  induction ds as [|c ds IH]; intros r H Hr; cbn [app].
  - destruct r as [|c r]; [reflexivity|]. cbn in Hr |- *. destruct (is_digit c) eqn:E; [|reflexivity]. contradiction Hr. apply digit_is, E.
  - inversion H as [|? ? Hc Hd]; subst. cbn [span_while]. replace (is_digit c) with true by (symmetry; apply digit_is, Hc). rewrite IH by assumption. reflexivity.
Qed.

Lemma integer_read : forall ds p s r, digits ds -> ds <> [] -> decimal_of ds = Z.of_N p -> p < usize_limit ->
  not_next digit s -> spaced s r -> unsigned_integer (ds ++ s) = (Ok p, r).
Proof.
  intros ds p s r Hd Hne E Hp Hn Hs. destruct ds as [|c ds]; [contradiction|]. cbn [app unsigned_integer].
  replace (is_digit c) with true by (symmetry; apply digit_is; inversion Hd; assumption).
  unfold decimal, number_run. change (c :: ds ++ s) with ((c :: ds) ++ s).
  rewrite digits_span by assumption.
  rewrite (fold_decimal (c :: ds) 0 p Hd E Hp). destruct Hs as [[-> Hr]|(x & Hx & Hl & ->)]; [apply no_space; exact Hr|].
  unfold bind, one_optional_space. rewrite Hx. unfold clen. apply N.ltb_lt in Hl. rewrite Hl. reflexivity.
Qed.

Lemma based_mono : forall B (v : char -> N) ds acc, 1 <= B -> (0 <= acc)%Z -> (acc <= fold_left (fun z c => (Z.of_N B * z + Z.of_N (v c))%Z) ds acc)%Z.
Proof.
  intros B v. induction ds as [|c ds IH]; intros acc HB Ha; cbn [fold_left]; [lia|]. specialize (IH (Z.of_N B * acc + Z.of_N (v c))%Z HB).
  assert (acc <= Z.of_N B * acc)%Z by nia. lia.
Qed.

Lemma fold_based : forall B (v : char -> N) ds acc p, 1 <= B -> fold_left (fun z c => (Z.of_N B * z + Z.of_N (v c))%Z) ds (Z.of_N acc) = Z.of_N p ->
  p < usize_limit -> fold_digits B acc (map v ds) = Some p.
Proof.
  intros B v. induction ds as [|c ds IH]; intros acc p HB E Hp; cbn [fold_left map fold_digits] in *; [f_equal; lia|].
  assert (E1 : (Z.of_N B * Z.of_N acc + Z.of_N (v c))%Z = Z.of_N (acc * B + v c)) by lia. rewrite E1 in E.
  pose proof (based_mono B v ds (Z.of_N (acc * B + v c)) HB ltac:(lia)) as Hm. rewrite E in Hm.
  assert (Hl : acc * B + v c <? usize_limit = true) by (apply N.ltb_lt; lia). rewrite Hl. apply IH; assumption.
Qed.

Lemma fold_same : forall (f g : Z -> char -> Z) (P : char -> Prop) ds acc, (forall z c, P c -> f z c = g z c) -> Forall P ds -> fold_left f ds acc = fold_left g ds acc.
Proof. intros f g P ds acc H Hd. revert acc. induction Hd as [|c ds Hc Hd IH]; intros acc; cbn [fold_left]; [reflexivity|]. rewrite H by exact Hc. apply IH. Qed.

Lemma octal_based : forall ds, digits ds -> octal_of ds = fold_left (fun z c => (Z.of_N 8 * z + Z.of_N (digit_val c))%Z) ds (Z.of_N 0).
Proof. intros ds H. unfold octal_of. apply (fold_same _ _ digit); [|exact H]. intros z c Hc. unfold digit in Hc. unfold digit_val. lia. Qed.

Lemma hexadecimal_based : forall ds, Forall hexadecimal_digit ds ->
  hexadecimal_of ds = fold_left (fun z c => (Z.of_N 16 * z + Z.of_N (hex_val c))%Z) ds (Z.of_N 0).
Proof.
  intros ds H. unfold hexadecimal_of. apply (fold_same _ _ hexadecimal_digit); [|exact H]. intros z c Hc. unfold hexadecimal_digit, digit in Hc. unfold hex_val, is_digit.
  destruct (N.leb_spec c 57); destruct (N.leb_spec 48 c); cbn [andb]; lia.
Qed.

Lemma hexadecimal_is : forall c, is_hex_upper c = true <-> hexadecimal_digit c.
Proof.
  intros c. unfold is_hex_upper, is_digit, is_alpha, hexadecimal_digit, digit.
  rewrite !andb_true_iff, !orb_true_iff, !andb_true_iff, !N.leb_le, N.ltb_lt. lia.
Qed.

Lemma octal_digits : forall ds, Forall octal_digit ds -> digits ds.
Proof. intros ds H. eapply Forall_impl; [|exact H]. intros c Hc. unfold octal_digit in Hc. unfold digit. lia. Qed.

Lemma hexadecimal_span : forall ds r, Forall hexadecimal_digit ds -> not_next hexadecimal_digit r -> span_while is_hex_upper (ds ++ r) = (ds, r).
Proof.
  induction ds as [|c ds IH]; intros r H Hr; cbn [app].
  - destruct r as [|c r]; [reflexivity|]. cbn [span_while]. cbn in Hr. destruct (is_hex_upper c) eqn:E; [|reflexivity]. contradiction Hr. apply hexadecimal_is, E.
  - inversion H as [|? ? Hc Hd]; subst. cbn [span_while]. replace (is_hex_upper c) with true by (symmetry; apply hexadecimal_is, Hc). rewrite IH by assumption. reflexivity.
Qed.

Lemma figures_nonneg : forall x z, figures x z -> (0 <= z)%Z.
Proof.
  intros x z [ds Hd Hn|ds Hd|ds Hd].
  - destruct (fold_decimal_mono ds 0%Z Hd) as [H|H]; [exact H|lia].
  - rewrite octal_based by (apply octal_digits, Hd). apply (based_mono 8); lia.
  - rewrite hexadecimal_based by exact Hd. apply (based_mono 16); lia.
Qed.

Lemma spaced_run : forall (p : N) s r, spaced s r -> (do _ <- one_optional_space ; ret p) s = (Ok p, r).
Proof.
  intros p s r [[-> Hr]|(x & Hx & Hl & ->)]; [apply no_space; exact Hr|].
  unfold bind, one_optional_space. rewrite Hx. unfold clen. apply N.ltb_lt in Hl. rewrite Hl. reflexivity.
Qed.

Lemma next_figure_digit : forall c ds y, digit c -> next_figure (c :: ds) y = digit y.
Proof.
  intros c ds y H. unfold digit in H.
  assert (E : c = 48 \/ c = 49 \/ c = 50 \/ c = 51 \/ c = 52 \/ c = 53 \/ c = 54 \/ c = 55 \/ c = 56 \/ c = 57) by lia.
  repeat (destruct E as [->|E]; [reflexivity|]). subst. reflexivity.
Qed.

Lemma figures_read : forall x z s r, figures x z -> (z < 2 ^ 64)%Z -> not_next (next_figure x) s -> spaced s r ->
  unsigned_integer (x ++ s) = (Ok (Z.to_N z), r).
Proof.
  intros x z s r H Hz Hn Hs. pose proof (figures_nonneg x z H) as H0. assert (Hu : Z.to_N z < usize_limit) by (change usize_limit with 18446744073709551616; lia).
  destruct H as [ds Hd Hne|ds Hd|ds Hd].
  - apply integer_read; try assumption; [rewrite Z2N.id by lia; reflexivity|]. destruct ds as [|c ds]; [contradiction|]. inversion Hd as [|? ? Hc _]; subst.
    destruct s as [|y s]; [exact I|]. cbn [not_next] in Hn |- *. rewrite next_figure_digit in Hn by exact Hc. exact Hn.
  - cbn [app unsigned_integer is_digit N.leb N.compare andb negb N.eqb Pos.eqb]. change (clen 39) with 1. cbn [N.eqb Pos.eqb negb]. unfold octal, number_run.
    rewrite digits_span by (try exact Hn; apply octal_digits, Hd).
    rewrite (fold_based 8 digit_val ds 0 (Z.to_N (octal_of ds))); [apply spaced_run, Hs|lia| |exact Hu].
    rewrite <- octal_based by (apply octal_digits, Hd). rewrite Z2N.id by lia. reflexivity.
  - cbn [app unsigned_integer]. change (is_digit 34) with false. change (clen 34) with 1. cbn [N.eqb Pos.eqb negb]. unfold hexadecimal, number_run.
    rewrite hexadecimal_span by (try exact Hn; exact Hd).
    rewrite (fold_based 16 hex_val ds 0 (Z.to_N (hexadecimal_of ds))); [apply spaced_run, Hs|lia| |exact Hu].
    rewrite <- hexadecimal_based by exact Hd. rewrite Z2N.id by lia. reflexivity.
Qed.

Lemma code_read : forall s z r, code_text s z r -> (z < 2 ^ 64)%Z -> unsigned_integer s = (Ok (Z.to_N z), r).
Proof.
  intros s z r [x z' s' r' Hf Hn Hs|c r' Hc Hb|c r' Hc] Hz; [apply figures_read; assumption| |]; rewrite N2Z.id.
  - cbn [unsigned_integer]. change (is_digit 96) with false. change (clen 96) with 1. cbn [N.eqb Pos.eqb negb].
    apply N.eqb_neq in Hb. apply N.ltb_lt in Hc. rewrite Hb, Hc. reflexivity.
  - cbn [unsigned_integer]. change (is_digit 96) with false. change (clen 96) with 1. cbn [N.eqb Pos.eqb negb].
    apply N.ltb_lt in Hc. rewrite Hc. reflexivity.
Qed.

Lemma code_nonneg : forall s z r, code_text s z r -> (0 <= z)%Z.
Proof. intros s z r [x z' s' r' Hf Hn Hs|c r' Hc Hb|c r' Hc]; [eapply figures_nonneg, Hf|lia|lia]. Qed.

Lemma code_shorter : forall s z r, code_text s z r -> exists a, a <> [] /\ s = a ++ r.
Proof.
  intros s z r [x z' s' r' Hf Hn Hs|c r' Hc Hb|c r' Hc].
  - assert (Hx : x <> []) by (destruct Hf; [assumption|discriminate|discriminate]).
    destruct Hs as [[-> _]|(c & _ & _ & ->)]; [exists x; auto|exists (x ++ [c])]. split; [destruct x; discriminate|rewrite <- app_assoc; reflexivity].
  - exists [96; c]. split; [discriminate|reflexivity].
  - exists [96; 92; c]. split; [discriminate|reflexivity].
Qed.
