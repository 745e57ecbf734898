(** * LexPanic: when each lexer that can panic does. *)

From Coq Require Import List NArith ZArith Bool Lia Arith.
From Verif Require Import Base Float32 Event Tables Prim PrimTable Lex Macros Primitives Spans Parser
  SpecLex LexFacts LexMore PrimFacts Keep KeepRun MacroFacts Quiet.
Import ListNotations.
Open Scope N_scope.
Open Scope sm_scope.

(** A run of characters that satisfy [f] is shorter than [k]. *)
Definition run_free (f : char -> bool) (k : N) (s : str) : Prop :=
  forall u v w, s = (u ++ v ++ w)%list -> forallb f v = true -> N.of_nat (length v) < k.

Definition ascii (s : str) : Prop := Forall (fun c => c < 128) s.

Lemma ascii_no_wide : forall s, ascii s -> no_wide s.
Proof.
  intros s H. eapply Forall_impl; [|exact H]. intros c Hc [_ Hw]. apply Hw. unfold clen.
  apply N.ltb_lt in Hc. rewrite Hc. reflexivity.
Qed.

(** ** Dimensions and glue *)

Lemma signs_tame : forall Q s, tame Q (fst (signs s)).
Proof. intros Q s. unfold signs. destruct (span_while _ _). exact I. Qed.

Lemma float_tame : forall Q s, tame Q (fst (floating_point s)).
Proof.
  intros Q s. unfold floating_point. apply bind_tame; [apply signs_tame|]. intros neg r _. unfold bind at 1, get.
  destruct (span_while is_digit r) as [ds r1]. destruct r1 as [|c r1]; [exact I|].
  destruct (_ || _); [destruct (span_while _ _)|]; exact I.
Qed.

Lemma unit_tame : forall (Q : panic -> Prop) s, (Q PBoundary \/ no_wide s) -> tame Q (fst (dimension_unit s)).
Proof.
  intros Q s H. unfold dimension_unit. pose proof (suffix_trim s) as Ht.
  destruct (trim_start s) as [|a [|b r]]; try exact I. destruct (assoc_str _ _); [|exact I].
  apply bind_tame; [|intros; exact I]. apply space_tame'. destruct H as [H|H]; [left; exact H|right].
  apply (no_wide_suffix r s); [|exact H]. destruct Ht as [u ->]. exists (u ++ [a; b])%list. rewrite <- app_assoc. reflexivity.
Qed.

Lemma dimension_tame : forall (Q : panic -> Prop) s, (Q PBoundary \/ no_wide s) -> tame Q (fst (lex_dimension s)).
Proof.
  intros Q s H. unfold lex_dimension. apply bind_tame'; [apply floating_point_suffix|apply float_tame|]. intros v r Hr _.
  apply bind_tame; [|intros; exact I]. apply unit_tame. destruct H as [H|H]; [left; exact H|right]. eapply no_wide_suffix; eassumption.
Qed.

Lemma part_tame : forall (Q : panic -> Prop) kw s, (Q PBoundary \/ no_wide s) -> tame Q (fst (glue_part kw s)).
Proof.
  intros Q kw s H. unfold glue_part. unfold bind at 1, get. destruct (strip_prefix kw (trim_start s)) as [r|] eqn:E; [|exact I].
  unfold bind at 1, put. apply bind_tame; [|intros; exact I]. apply dimension_tame. destruct H as [H|H]; [left; exact H|right].
  eapply no_wide_suffix; [|exact H]. eapply suffix_trans; [eapply suffix_strip_prefix; exact E|apply suffix_trim].
Qed.

Lemma glue_tame : forall (Q : panic -> Prop) s, (Q PBoundary \/ no_wide s) -> tame Q (fst (lex_glue s)).
Proof.
  intros Q s H. unfold lex_glue.
  assert (Hs : forall r, suffix r s -> Q PBoundary \/ no_wide r) by (intros r Hr; destruct H as [H|H]; [left; exact H|right; eapply no_wide_suffix; eassumption]).
  apply bind_tame'; [apply lex_dimension_suffix|apply dimension_tame; exact H|]. intros d r Hr _.
  apply bind_tame'; [apply glue_part_suffix|apply part_tame; auto|]. intros p r2 Hr2 _.
  apply bind_tame; [apply part_tame; apply Hs; eapply suffix_trans; eassumption|]. intros; exact I.
Qed.

Lemma or_braced_tame : forall (Q : panic -> Prop) A (l : lexer A) s,
  (forall t, (Q PBoundary \/ no_wide t) -> tame Q (fst (l t))) -> (Q PBoundary \/ no_wide s) -> tame Q (fst (or_braced l s)).
Proof.
  intros Q A l s Hl H. unfold or_braced. unfold bind at 1, get. destruct (strip_char 123 _); [|apply Hl; exact H].
  apply bind_tame; [apply brace_tame|]. intros g r E. apply brace_argument_ok in E as (w & _ & -> & _).
  apply bind_tame; [|intros [a t] r2 _; cbn [fst snd]; destruct (is_nil _); exact I].
  unfold run_on. assert (Hg : tame Q (fst (l g))).
  { apply Hl. destruct H as [H|H]; [left; exact H|right]. apply Forall_app in H as [_ H]. inversion H as [|? ? _ H']; subst. apply Forall_app in H'. apply H'. }
  destruct (l g) as [[?|?|?|] ?]; exact Hg.
Qed.

(** ** Numbers *)

Lemma number_tame : forall (Q : panic -> Prop) f v b s,
  (Q POverflow \/ fold_digits b 0 (map v (fst (span_while f s))) <> None) -> (Q PBoundary \/ no_wide s) ->
  tame Q (fst (number_run f v b s)).
Proof.
  intros Q f v b s Ho Hw. unfold number_run. destruct (span_while f s) as [ds r] eqn:E. cbn [fst] in Ho.
  destruct (fold_digits b 0 (map v ds)); [|destruct Ho as [Ho|Ho]; [exact Ho|congruence]].
  apply bind_tame; [|intros; exact I]. apply space_tame'. destruct Hw as [Hw|Hw]; [left; exact Hw|right].
  eapply no_wide_suffix; [eapply suffix_span; exact E|exact Hw].
Qed.

Lemma fold_short : forall b ds acc k, b <= 10 -> Forall (fun d => d <= 9) ds -> (length ds + k <= 18)%nat ->
  acc < 10 ^ N.of_nat k -> exists n, fold_digits b acc ds = Some n /\ n < 10 ^ N.of_nat (length ds + k).
Proof.
  intros b. induction ds as [|d ds IH]; intros acc k Hb Hd Hk Ha; cbn [fold_digits].
  - exists acc. split; [reflexivity|exact Ha].
  - cbn [length] in Hk. inversion Hd as [|? ? H1 H2]; subst.
    assert (Hv : acc * b + d < 10 ^ N.of_nat (S k)) by (rewrite Nat2N.inj_succ, N.pow_succ_r'; nia).
    assert (Hle : 10 ^ N.of_nat (S k) <= 10 ^ 18) by (apply N.pow_le_mono_r; lia).
    destruct (N.ltb_spec (acc * b + d) usize_limit) as [_|Hc].
    + destruct (IH (acc * b + d) (S k) Hb H2 ltac:(lia) Hv) as (n & En & Hn). exists n. split; [exact En|].
      cbn [length]. replace (S (length ds) + k)%nat with (length ds + S k)%nat by lia. exact Hn.
    + exfalso. assert (10 ^ 18 < usize_limit) by reflexivity. lia.
Qed.

Lemma digit_le : forall c, is_digit c = true -> digit_val c <= 9.
Proof. intros c H. unfold is_digit in H. apply andb_prop in H as [H1 H2]. apply N.leb_le in H1, H2. unfold digit_val. lia. Qed.

Lemma digits_le : forall ds, forallb is_digit ds = true -> Forall (fun d => d <= 9) (map digit_val ds).
Proof.
  intros ds H. apply Forall_forall. intros d Hd. apply in_map_iff in Hd as (c & <- & Hc). rewrite forallb_forall in H. apply digit_le. auto.
Qed.

(** What the text must satisfy for a number read from it to be small. *)
Definition small_text (s : str) : Prop := ascii s /\ run_free is_digit 5 s /\ ~ In 34 s.

Lemma run_free_suffix : forall f k r s, suffix r s -> run_free f k s -> run_free f k r.
Proof. intros f k r s [u ->] H a b c -> Hf. apply (H (u ++ a)%list b c); [rewrite <- app_assoc; reflexivity|exact Hf]. Qed.

Lemma small_suffix : forall r s, suffix r s -> small_text s -> small_text r.
Proof.
  intros r s Hs (H1 & H2 & H3). split; [|split; [eapply run_free_suffix; eassumption|]].
  - destruct Hs as [u ->]. apply Forall_app in H1. apply H1.
  - destruct Hs as [u ->]. intros Hi. apply H3. apply in_or_app. right. exact Hi.
Qed.

Lemma small_run : forall b s, b <= 10 -> run_free is_digit 5 s ->
  exists n, fold_digits b 0 (map digit_val (fst (span_while is_digit s))) = Some n /\ n < 10000.
Proof.
  intros b s Hb Hr. destruct (span_while is_digit s) as [ds r] eqn:E. destruct (span_while_spec _ _ _ _ E) as (Es & Hd & _). cbn [fst].
  assert (Hl := Hr [] ds r Es Hd).
  destruct (fold_short b (map digit_val ds) 0 0 Hb (digits_le _ Hd)) as (n & En & Hn); [rewrite map_length; lia|reflexivity|].
  exists n. split; [exact En|]. rewrite map_length, Nat.add_0_r in Hn. eapply N.lt_le_trans; [exact Hn|].
  change 10000 with (10 ^ 4). apply N.pow_le_mono_r; lia.
Qed.

Lemma small_number_run : forall Q b s, b <= 10 -> small_text s -> tame Q (fst (number_run is_digit digit_val b s)) /\
  forall n r, number_run is_digit digit_val b s = (Ok n, r) -> n < 10000.
Proof.
  intros Q b s Hb (Ha & Hr & _). destruct (small_run b s Hb Hr) as (n & En & Hn). split.
  - apply number_tame; [right; rewrite En; discriminate|right; apply ascii_no_wide; exact Ha].
  - intros n' r H. unfold number_run in H. destruct (span_while is_digit s) as [ds t]. cbn [fst] in En. rewrite En in H.
    unfold bind in H. destruct (one_optional_space t) as [[?|?|?|] ?]; try discriminate. cbn in H. injection H as <- _. exact Hn.
Qed.

Lemma small_integer : forall Q s, small_text s -> tame Q (fst (unsigned_integer s)) /\
  forall n r, unsigned_integer s = (Ok n, r) -> n < 10000.
Proof.
  intros Q s Hs. destruct s as [|c s1]; [split; [exact I|discriminate]|]. cbn [unsigned_integer].
  destruct (is_digit c); [apply small_number_run; [lia|exact Hs]|].
  assert (Hc : clen c = 1). { destruct Hs as (Ha & _). inversion Ha as [|? ? Hc _]; subst. unfold clen. apply N.ltb_lt in Hc. rewrite Hc. reflexivity. }
  rewrite Hc. cbn [N.eqb Pos.eqb negb].
  assert (Hs1 : small_text s1) by (eapply small_suffix; [apply suffix_cons, suffix_refl|exact Hs]).
  destruct (c =? 96).
  { destruct s1 as [|b s2]; [split; [exact I|discriminate]|]. destruct (b =? 92).
    - destruct s2 as [|b' s3]; [split; [exact I|discriminate]|]. destruct (N.ltb_spec b' 128); split; try exact I; intros n r E; [injection E as <- <-; lia|discriminate].
    - destruct (N.ltb_spec b 128); split; try exact I; intros n r E; [injection E as <- <-; lia|discriminate]. }
  destruct (c =? 39); [apply small_number_run; [lia|exact Hs1]|].
  destruct (N.eqb_spec c 34) as [->|_]; [|split; [exact I|discriminate]].
  exfalso. destruct Hs as (_ & _ & Hn). apply Hn. left. reflexivity.
Qed.

Lemma integer_tame : forall (Q : panic -> Prop) s, Q POverflow -> Q PBoundary -> tame Q (fst (unsigned_integer s)).
Proof.
  intros Q s Ho Hb. destruct s as [|c s1]; [exact I|]. cbn [unsigned_integer].
  destruct (is_digit c); [apply number_tame; auto|]. destruct (negb _); [exact Hb|].
  destruct (c =? 96). { destruct s1 as [|b s2]; [exact I|]. destruct (b =? 92); [destruct s2 as [|b' s3]; [exact I|]|]; destruct (_ <? 128); exact I. }
  destruct (c =? 39); [apply number_tame; auto|]. destruct (c =? 34); [apply number_tame; auto|exact I].
Qed.

(** ** Colours, columns, delimited text *)

Lemma split_ascii : forall s n, ascii s -> n <= blen s -> exists a b, split_bytes n s = Some (a, b) /\ s = (a ++ b)%list /\ blen a = n.
Proof.
  intros s n Ha. revert n. induction Ha as [|c s Hc Ha IH]; intros n Hn.
  - cbn in Hn. assert (n = 0) by lia. subst n. exists [], []. auto.
  - assert (Hl : clen c = 1) by (unfold clen; apply N.ltb_lt in Hc; rewrite Hc; reflexivity). cbn [blen] in Hn. cbn [split_bytes].
    destruct (N.eqb_spec n 0) as [->|Hz]; [exists [], (c :: s); auto|]. rewrite Hl in *. destruct (N.ltb_spec n 1); [lia|].
    destruct (IH (n - 1)) as (a & b & -> & -> & Hb); [lia|]. exists (c :: a), b. cbn [blen app]. rewrite Hl. repeat split. lia.
Qed.

Lemma color_tame : forall (Q : panic -> Prop) s, (Q PBoundary \/ ascii s \/ ~ In 35 s) -> tame Q (lex_color s).
Proof.
  intros Q s H. unfold lex_color. destruct (strip_char 35 s) as [h|] eqn:E; [|destruct (dvipsnames_color s); exact I].
  destruct (N.eqb_spec (blen h) 6) as [Hl|_]; [|exact I].
  assert (H' : Q PBoundary \/ ascii h).
  { apply strip_char_some in E. subst s. destruct H as [H|[H|H]]; [left; exact H|right; inversion H; assumption|exfalso; apply H; left; reflexivity]. }
  destruct H' as [Hq|Ha].
  - destruct (split_bytes 2 h) as [[a h1]|]; [|exact Hq]. destruct (u8_from_hex a); [|exact I]. destruct (split_bytes 2 h1) as [[b h2]|]; [|exact Hq].
    destruct (u8_from_hex b); [|exact I]. destruct (u8_from_hex h2); exact I.
  - destruct (split_ascii h 2 Ha) as (a & h1 & -> & -> & La); [lia|]. destruct (u8_from_hex a); [|exact I].
    apply Forall_app in Ha as [_ Ha]. rewrite blen_app in Hl. destruct (split_ascii h1 2 Ha) as (b & h2 & -> & _ & _); [lia|].
    destruct (u8_from_hex b); [|exact I]. destruct (u8_from_hex h2); exact I.
Qed.

(** The characters of a column specification. *)
Definition is_col (c : char) : bool := (c =? 99) || (c =? 108) || (c =? 114) || (c =? 124) || (c =? 58).

Lemma columns_prefix : forall (Q : panic -> Prop) s n, (Q POverflow \/ n + N.of_nat (length (fst (span_while is_col s))) < 65535) -> tame Q (array_columns n s).
Proof.
  intros Q. induction s as [|c s IH]; intros n H; [exact I|]. cbn [array_columns].
  destruct (N.leb_spec 65535 n) as [Hn|Hn]; [destruct H as [H|H]; [exact H|lia]|].
  cbn [span_while] in H. unfold is_col in H at 1. destruct (span_while is_col s) as [a b]. cbn [fst] in *.
  destruct (c =? 99), (c =? 108), (c =? 114), (c =? 124), (c =? 58); cbn [orb fst length] in H; try exact I;
  match goal with |- tame _ (match array_columns ?m s with _ => _ end) =>
    assert (Ha : tame Q (array_columns m s)) by (apply IH; destruct H as [H|H]; [left; exact H|right; lia]);
    destruct (array_columns m s) as [[? ?]|?|?|]; exact Ha end.
Qed.

Lemma columns_tame : forall (Q : panic -> Prop) s, (Q POverflow \/ run_free is_col 65535 s) -> tame Q (array_columns 0 s).
Proof.
  intros Q s H. apply columns_prefix. destruct H as [H|H]; [left; exact H|right].
  destruct (span_while is_col s) as [a b] eqn:E. destruct (span_while_spec _ _ _ _ E) as (Es & Ha & _). cbn [fst].
  assert (Hl := H [] a b Es Ha). lia.
Qed.

Lemma over_tame : forall (Q : panic -> Prop) suf s, suf <> [] -> Q PIndex -> tame Q (fst (content_with_suffix suf s)).
Proof.
  intros Q suf s Hs Hq. destruct (content_with_suffix suf s) as [[?|?|p|] r] eqn:E; try exact I.
  apply content_with_suffix_panic in E as [-> _]; [exact Hq|exact Hs].
Qed.

(** A suffix of two bytes or more is never looked for past the end. *)
Lemma cscan_long : forall suf, 2 <= blen suf -> forall s m esc, (esc = true -> m = CNorm /\ s <> []) -> cscan suf m esc s <> CIndexPanic.
Proof.
  intros suf Hsuf. induction s as [|c s IH]; intros m esc Hm H.
  - destruct m; cbn [cscan] in H; try discriminate. destruct esc; [destruct (Hm eq_refl); congruence|].
    destruct (negb (has_bytes (blen suf) [])) eqn:E; [discriminate|]. apply negb_false_iff in E. apply has_bytes_spec in E. cbn [blen] in E. lia.
  - assert (Q : forall m', ccons c (cscan suf m' false s) <> CIndexPanic).
    { intros m' Hc. apply ccons_panic in Hc. revert Hc. apply IH. discriminate. }
    destruct m; cbn [cscan] in H.
    + destruct esc; [eapply Q; exact H|].
      destruct (negb (has_bytes (blen suf) (c :: s))) eqn:E; [discriminate|]. apply negb_false_iff in E. apply has_bytes_spec in E.
      destruct (starts_with suf (c :: s)); [discriminate|].
      destruct (N.eqb_spec c 92) as [->|].
      { apply ccons_panic in H. revert H. apply IH. intros _. split; [reflexivity|]. intros ->. cbn [blen] in E. change (clen 92) with 1 in E. lia. }
      destruct (c =? 37); [eapply Q; exact H|].
      destruct (c =? 123); [|eapply Q; exact H].
      destruct (gscan _ _ _ _ _ s); try discriminate. eapply Q. exact H.
    + destruct esc; [destruct (Hm eq_refl); discriminate|]. eapply Q. exact H.
    + destruct esc; [destruct (Hm eq_refl); discriminate|]. eapply Q. exact H.
Qed.

Lemma long_suffix_tame : forall Q suf s, 2 <= blen suf -> tame Q (fst (content_with_suffix suf s)).
Proof.
  intros Q suf s H. unfold content_with_suffix. destruct (cscan suf CNorm false s) eqn:E; try exact I.
  exfalso. eapply cscan_long; [exact H| |exact E]. discriminate.
Qed.

(** ** Expansions *)

Lemma args_tame : forall (Q : panic -> Prop) lb ps s, Forall some_ne ps -> Q PIndex -> tame Q (fst (macro_args lb ps s)).
Proof.
  intros Q lb. induction ps as [|p ps IH]; intros s Hp Hq; [exact I|]. inversion Hp as [|? ? H1 H2]; subst. cbn [macro_args].
  destruct (is_nil ps && lb).
  - unfold bind at 1, get. destruct (split_once_str _ s) as [[b ?]|]; exact I.
  - apply bind_tame.
    + destruct p as [suf|]; apply bind_tame; try (intros; exact I); [apply over_tame; assumption|apply argument_tame].
    + intros a r _. apply bind_tame; [apply IH; assumption|intros; exact I].
Qed.

Lemma n_args_tame : forall Q n s, tame Q (fst (n_args n s)).
Proof.
  intros Q. induction n as [|n IH]; intros s; [exact I|]. cbn [n_args]. apply bind_tame; [apply argument_tame|].
  intros a r _. apply bind_tame; [apply IH|intros; exact I].
Qed.

Lemma expand_tame : forall (Q : panic -> Prop) d s, defn_ok d -> Q PIndex -> Q POverflow -> tame Q (expand_definition d s).
Proof.
  intros Q d s Hd Hi Ho. unfold expand_definition. assert (H : tame Q (fst (expand_call d s))).
  { unfold expand_call. destruct d as [pre ps lb rep|t|n def rep].
    - unfold bind at 1, get. apply bind_tame.
      + destruct pre as [p|]; [destruct (strip_prefix p s)|]; exact I.
      + intros _ r _. apply bind_tame; [apply args_tame; [apply Hd|exact Hi]|]. intros args r2 _. destruct (expand_rep args rep); [exact I|exact Hi].
    - destruct t; exact I.
    - apply bind_tame.
      + destruct def; [|exact I]. apply bind_tame; [apply optional_tame|intros; exact I].
      + intros first r _. destruct (n <? _); [exact Ho|]. apply bind_tame; [apply n_args_tame|]. intros l r2 _. destruct (expand_rep _ rep); [exact I|exact Hi]. }
  destruct (expand_call d s) as [[?|?|?|] ?]; exact H.
Qed.
