(** * UseErr: the errors of uses of macros, and of names that are missing. *)

From Coq Require Import List NArith ZArith Bool Lia Arith.
From Verif Require Import Base Float32 Event Tables Prim PrimTable Lex Macros Primitives Spans Parser
  SpecLex LexFacts LexMore PrimFacts Keep Measure Terminate KeepRun Api SpecNum LexNum SpecMacro MacroFacts Sim SimRun
  SpanFacts MacroRun Quiet Preamble LexPanic SpanRun SpecDefect MacroErr SpecUse CommandErr.
Import ListNotations.
Open Scope N_scope.

(** ** Tokens and arguments *)

Lemma skip_com_end : forall t, ~ In 10 t -> skip_blank true t = [].
Proof.
  induction t as [|c t IH]; intros H; [reflexivity|]. cbn [skip_blank]. destruct (N.eqb_spec c 10) as [->|Hc]; [exfalso; apply H; left; reflexivity|].
  apply IH. intros Hi. apply H. right. exact Hi.
Qed.

Lemma nothing_token : forall s, nothing s -> lex_token s = (Err EToken, []).
Proof.
  intros s [b Hb|b t Hb Ht]; unfold lex_token.
  - rewrite <- (app_nil_r b), skip_blank_app by exact Hb. reflexivity.
  - rewrite skip_blank_app by exact Hb. cbn [skip_blank]. change (is_ws 37) with false. cbn [N.eqb Pos.eqb]. rewrite skip_com_end by exact Ht. reflexivity.
Qed.

Lemma token_fails : forall s x, token_fault s x -> exists r, lex_token s = (Err x, r).
Proof.
  intros s x [z Hz|b Hb]; [rewrite (nothing_token _ Hz); eauto|]. unfold lex_token. rewrite skip_blank_app by exact Hb. cbn. eauto.
Qed.

Lemma skip_blank_trim : forall s, skip_blank false (trim_start s) = skip_blank false s.
Proof. induction s as [|c s IH]; [reflexivity|]. cbn [trim_start skip_blank]. destruct (is_ws c) eqn:E; [exact IH|]. cbn [skip_blank]. rewrite E. reflexivity. Qed.

Lemma brace_token : forall s x, trim_start s = 123 :: x -> lex_token s = (Ok (TChr (123 :: x)), x).
Proof. intros s x H. unfold lex_token. rewrite <- skip_blank_trim, H. reflexivity. Qed.

Lemma unclosed_fails : forall r, unclosed r -> exists r', group_content GKNormal r = (Err (EUnbalancedGroup (Some GKNormal)), r').
Proof.
  intros r H. destruct (group_content_cases GKNormal r) as [(a & r' & E)|(r' & E & _)]; [|eauto].
  apply (group_content_balanced GKNormal 123 125) in E as [-> Hb]; [|left; auto]. exfalso. eapply H; [exact Hb|reflexivity].
Qed.

Lemma unclosed_iff : forall r, unclosed r <-> forall a r', gscan (opening_str GKNormal) (closing_str GKNormal) MNorm false 0 r <> GFound a r'.
Proof.
  intros r. unfold unclosed. split; intros H a r'.
  - rewrite gscan_brace. intros [-> Hb]. eapply H; [exact Hb|reflexivity].
  - intros Hb ->. eapply H. apply gscan_brace. eauto.
Qed.

Lemma argument_fails : forall s x, argument_fault s x -> exists r, lex_argument s = (Err x, r).
Proof.
  intros s x [z y Hz|w r Hw Hr]; unfold lex_argument.
  - destruct (token_fails _ _ Hz) as [r Er]. destruct (strip_char 123 (trim_start z)) as [u|] eqn:E.
    + apply strip_char_some, brace_token in E. congruence.
    + unfold bind. rewrite Er. eauto.
  - rewrite trim_white; [|exact Hw|unfold not_next, white; discriminate]. cbn [strip_char N.eqb Pos.eqb].
    destruct (unclosed_fails _ Hr) as [r' E]. unfold bind. rewrite E. eauto.
Qed.

(** ** Delimited arguments *)

Definition no_result (x : cres) : Prop := match x with CFound _ _ => False | _ => True end.

Lemma capp_stop : forall p x, no_result x -> capp p x = x.
Proof. intros p [? ?| | |] H; cbn in *; try reflexivity; contradiction. Qed.

Lemma ccons_stop : forall c x, no_result x -> ccons c x = x.
Proof. intros c [? ?| | |] H; cbn in *; try reflexivity; contradiction. Qed.

Lemma passes_bytes : forall suf s r, passes suf s r -> blen r <= blen s.
Proof. induction 1; cbn [blen] in *; rewrite ?blen_app in *; cbn [blen] in *; lia. Qed.

Lemma passes_scan : forall suf s r v, passes suf s r -> cscan suf CNorm false r = v -> no_result v ->
  v = CEof \/ blen suf <= blen r -> cscan suf CNorm false s = v.
Proof.
  intros suf s r v H Hr Hv Hb.
  assert (Hshort : forall z, blen r <= blen z -> has_bytes (blen suf) z = false -> CEof = v).
  { intros z Hz E. destruct Hb as [->|Hb]; [reflexivity|]. assert (E' : has_bytes (blen suf) z = true) by (apply has_bytes_spec; lia). congruence. }
  induction H as [s|x s r H1 H2 H3 Hp H IH|x s r Hp H IH|t s r Ht Hp H IH|g s r Hg Hp H IH]; [exact Hr| | | |];
    specialize (IH Hr Hb Hshort); pose proof (passes_bytes _ _ _ H) as Hlen; apply starts_with_false in Hp; cbn [cscan]; rewrite Hp;
    match goal with |- (if negb (has_bytes _ ?z) then _ else _) = _ => destruct (has_bytes (blen suf) z) eqn:Eb; cbn [negb];
      [|apply (Hshort z); [cbn [blen]; rewrite ?blen_app; cbn [blen]; lia|exact Eb]] end.
  - destruct (N.eqb_spec x 92); [congruence|]. destruct (N.eqb_spec x 37); [congruence|]. destruct (N.eqb_spec x 123); [congruence|].
    rewrite IH. apply ccons_stop, Hv.
  - cbn [N.eqb Pos.eqb]. rewrite IH. rewrite !ccons_stop; auto. rewrite ccons_stop; exact Hv.
  - cbn [N.eqb Pos.eqb]. rewrite cscan_com by exact Ht. rewrite IH, capp_stop, ccons_stop by exact Hv. reflexivity.
  - cbn [N.eqb Pos.eqb]. rewrite (proj2 (gscan_brace (g ++ 125 :: s) g s)) by auto.
    replace (g ++ 125 :: s) with ((g ++ [125]) ++ s) by (rewrite <- app_assoc; reflexivity).
    replace (length g + 1)%nat with (length (g ++ [125])) by (rewrite app_length; reflexivity).
    rewrite cscan_skip, IH, capp_stop, ccons_stop by exact Hv. reflexivity.
Qed.

Lemma com_eof : forall suf t, ~ In 10 t -> cscan suf CCom false t = CEof.
Proof.
  induction t as [|c t IH]; intros H; [reflexivity|]. cbn [cscan]. destruct (N.eqb_spec c 10) as [->|Hc]; [exfalso; apply H; left; reflexivity|].
  rewrite IH; [reflexivity|]. intros Hi. apply H. right. exact Hi.
Qed.

Lemma delimited_fails : forall suf s x, delimited_fault suf s x -> exists r, content_with_suffix suf s = (Err x, r).
Proof.
  intros suf s x H. unfold content_with_suffix. destruct H as [s r Hp Hl|s t Hp Ht Hn|s r Hp Hl Hn Hu].
  - rewrite (passes_scan suf s r CEof Hp); [eauto| |exact I|left; reflexivity].
    assert (E : has_bytes (blen suf) r = false) by (destruct (has_bytes (blen suf) r) eqn:E; [apply has_bytes_spec in E; lia|reflexivity]).
    destruct r; cbn [cscan]; rewrite E; reflexivity.
  - rewrite (passes_scan suf s (37 :: t) CEof Hp); [eauto| |exact I|left; reflexivity].
    cbn [cscan]. apply starts_with_false in Hn. rewrite Hn. destruct (has_bytes (blen suf) (37 :: t)); [|reflexivity].
    cbn [negb N.eqb Pos.eqb]. rewrite com_eof by exact Ht. reflexivity.
  - rewrite (passes_scan suf s (123 :: r) CGroup Hp); [eauto| |exact I|right; exact Hl].
    cbn [cscan]. apply starts_with_false in Hn. rewrite Hn, (proj2 (has_bytes_spec (123 :: r) (blen suf)) Hl). cbn [negb N.eqb Pos.eqb].
    pose proof (proj1 (unclosed_iff r) Hu) as Hg. destruct (gscan _ _ _ _ _ r) as [a r'| |] eqn:E; [exfalso; eapply Hg; reflexivity|reflexivity|reflexivity].
Qed.

(** ** All the arguments *)

Lemma args_fail : forall ps s x, arguments_fault ps s x -> exists r, macro_args false ps s = (Err x, r).
Proof.
  intros ps s x H. induction H as [ps s x H|suf ps s x Hs H|ps s a r x Ha H [r' IH]|suf ps s a r x Hs Ha H [r' IH]]; cbn [macro_args]; rewrite andb_false_r; unfold bind.
  - destruct (argument_fails _ _ H) as [r E]. rewrite E. eauto.
  - destruct (delimited_fails _ _ _ H) as [r E]. rewrite E. eauto.
  - apply read_argument in Ha as (g & Eg & _). rewrite Eg. cbn. rewrite IH. eauto.
  - apply (content_with_suffix_iff suf Hs) in Ha. rewrite Ha. cbn. rewrite IH. eauto.
Qed.

Lemma n_args_macro : forall n s, n_args n s = macro_args false (repeat None n) s.
Proof.
  induction n as [|n IH]; intros s; [reflexivity|]. cbn [n_args repeat macro_args]. rewrite andb_false_r. unfold bind.
  destruct (lex_argument s) as [[a|?|?|] r]; try reflexivity. cbn. rewrite IH. reflexivity.
Qed.

Lemma nil_snoc : forall A (l : list A) z, is_nil (l ++ [z]) = false.
Proof. intros A [|x l] z; reflexivity. Qed.

Lemma brace_args_fail : forall ps s x z, arguments_fault ps s x -> exists r, macro_args true (ps ++ [z]) s = (Err x, r).
Proof.
  intros ps s x z H. induction H as [ps s x H|suf ps s x Hs H|ps s a r x Ha H [r' IH]|suf ps s a r x Hs Ha H [r' IH]]; cbn [macro_args app];
    rewrite nil_snoc; cbn [andb]; unfold bind.
  - destruct (argument_fails _ _ H) as [r E]. rewrite E. eauto.
  - destruct (delimited_fails _ _ _ H) as [r E]. rewrite E. eauto.
  - apply read_argument in Ha as (g & Eg & _). rewrite Eg. cbn. rewrite IH. eauto.
  - apply (content_with_suffix_iff suf Hs) in Ha. rewrite Ha. cbn. rewrite IH. eauto.
Qed.

Lemma split_none : forall p s, (forall a r, s <> a ++ p ++ r) -> split_once_str p s = None.
Proof.
  intros p. induction s as [|c s IH]; intros H; cbn [split_once_str].
  - destruct (strip_prefix p []) as [r|] eqn:E; [|reflexivity]. apply strip_prefix_some in E. exfalso. exact (H [] r E).
  - destruct (strip_prefix p (c :: s)) as [r|] eqn:E; [apply strip_prefix_some in E; exfalso; exact (H [] r E)|].
    rewrite IH; [reflexivity|]. intros a r ->. exact (H (c :: a) r eq_refl).
Qed.

Lemma no_brace_fail : forall ps s l r suf, arguments ps s l r -> (forall a r', r <> a ++ suf ++ 123 :: r') ->
  exists r', macro_args true (ps ++ [delimiter suf]) s = (Err EMacroSuffixNotFound, r').
Proof.
  intros ps s l r suf H Hr. induction H as [s|ps s a r1 l r Ha H IH|d ps s a r1 l r Hs Ha H IH]; cbn [macro_args app].
  - cbn [is_nil andb]. unfold bind, get. rewrite split_none; [eexists; reflexivity|]. intros a r ->.
    destruct suf as [|c suf]; cbn [delimiter] in Hr; [exact (Hr a r eq_refl)|]. apply (Hr a r). rewrite <- app_assoc. reflexivity.
  - rewrite nil_snoc. cbn [andb]. unfold bind.
    apply read_argument in Ha as (g & Eg & _). rewrite Eg. cbn. destruct (IH Hr) as [r' E]. rewrite E. eauto.
  - rewrite nil_snoc. cbn [andb]. unfold bind.
    apply (content_with_suffix_iff d Hs) in Ha. rewrite Ha. cbn. destruct (IH Hr) as [r' E]. rewrite E. eauto.
Qed.

Lemma not_prefix : forall p s, ~ prefix p s -> strip_prefix p s = None.
Proof. intros p s H. destruct (strip_prefix p s) as [r|] eqn:E; [|reflexivity]. apply strip_prefix_some in E. exfalso. apply H. exists r. congruence. Qed.

Lemma prefix_step : forall pre s, (forall A (f : lexer A), (match delimiter pre with None => ret tt | Some p => match strip_prefix p (pre ++ s) with Some r => put r | None => fail EIncorrectMacroPrefix end end ;; f) (pre ++ s) = f s).
Proof. intros [|c pre] s A f; cbn [delimiter app]; [reflexivity|]. change (c :: pre ++ s) with ((c :: pre) ++ s). rewrite strip_prefix_app. reflexivity. Qed.

Lemma use_fails : forall m d s x, means m d -> use_fault m s x -> expand_definition d s = Err x.
Proof.
  intros m d s x Hm H. unfold expand_definition. assert (Hx : exists r, expand_call d s = (Err x, r)); [|destruct Hx as [r ->]; reflexivity].
  destruct H as [pre sufs rep s Hp|pre sufs rep s x Ha|pre sufs rep s Hp|pre sufs suf rep s x Ha|pre sufs suf rep s args r Ha Hr|k rep s x Ha|k dd rep w g s x Hk Hw Hg Ha|k dd rep s x Hk Hn Ha];
    cbn [means] in Hm; destruct Hm as (l & _ & ->); unfold expand_call.
  - assert (Hne : pre <> []) by (intros ->; apply Hp; exists s; reflexivity). destruct pre as [|c pre]; [congruence|]. cbn [delimiter].
    unfold bind at 1, get. rewrite (not_prefix _ _ Hp). eexists. reflexivity.
  - unfold bind at 1, get. cbv beta iota. rewrite prefix_step. destruct (args_fail _ _ _ Ha) as [r E]. unfold bind. rewrite E. eauto.
  - assert (Hne : pre <> []) by (intros ->; apply Hp; exists s; reflexivity). destruct pre as [|c pre]; [congruence|]. cbn [delimiter].
    unfold bind at 1, get. rewrite (not_prefix _ _ Hp). eexists. reflexivity.
  - unfold bind at 1, get. cbv beta iota. rewrite prefix_step. rewrite map_app. cbn [map]. destruct (brace_args_fail _ _ _ (delimiter suf) Ha) as [r E]. unfold bind. rewrite E. eauto.
  - unfold bind at 1, get. cbv beta iota. rewrite prefix_step. rewrite map_app. cbn [map]. destruct (no_brace_fail _ _ _ _ suf Ha Hr) as [r' E]. unfold bind. rewrite E. eauto.
  - destruct (args_fail _ _ _ Ha) as [r E]. unfold bind, ret. destruct (N.ltb_spec k 0); [lia|]. rewrite N.sub_0_r, n_args_macro, E. eauto.
  - destruct (args_fail _ _ _ Ha) as [r E]. unfold bind, ret. rewrite (read_optional w g s Hw Hg). destruct (N.ltb_spec k 1); [lia|].
    rewrite n_args_macro, E. eauto.
  - destruct (args_fail _ _ _ Ha) as [r E]. unfold bind, ret. assert (Eo : optional_argument s = (Ok None, s)).
    { unfold optional_argument. destruct (strip_char 91 (trim_start s)) as [y|] eqn:Ey; [|reflexivity]. apply strip_char_some in Ey. exfalso. exact (Hn y Ey). }
    rewrite Eo. destruct (N.ltb_spec k 1); [lia|]. rewrite n_args_macro, E. eauto.
Qed.

(** ** Every use is right or wrong *)

Lemma trim_parts : forall s, exists w r, s = w ++ r /\ Forall white w /\ not_next white r /\ trim_start s = r.
Proof.
  induction s as [|c s (w & r & -> & Hw & Hr & E)]; [exists [], []; repeat split; constructor|]. cbn [trim_start]. destruct (is_ws c) eqn:Ec.
  - exists (c :: w), r. repeat split; try assumption. constructor; assumption.
  - exists [], (c :: w ++ r). repeat split; [constructor|]. cbn. unfold white. congruence.
Qed.

Lemma letters_parts : forall s, exists n z, s = n ++ z /\ Forall letter n /\ not_next letter z.
Proof.
  induction s as [|c s (n & z & -> & Hn & Hz)]; [exists [], []; repeat split; constructor|]. destruct (is_alpha c) eqn:Ec.
  - exists (c :: n), z. repeat split; [constructor; [apply is_alpha_iff, Ec|exact Hn]|exact Hz].
  - exists [], (c :: n ++ z). repeat split; [constructor|]. cbn. intros H. apply is_alpha_iff in H. congruence.
Qed.

Lemma named_total : forall c s, exists n r, named (c :: s) n r.
Proof.
  intros c s. destruct (is_alpha c) eqn:Ec.
  - destruct (letters_parts (c :: s)) as (n & z & E & Hn & Hz). destruct (trim_parts z) as (w & r & -> & Hw & Hr & _). exists n, r. rewrite E.
    apply named_word; try assumption. intros ->. cbn [app] in E. rewrite <- E in Hz. apply Hz. apply is_alpha_iff, Ec.
  - destruct (trim_parts s) as (w & r & -> & Hw & Hr & _). exists [c], r. apply named_symbol; try assumption. intros H. apply is_alpha_iff in H. congruence.
Qed.

Lemma argument_cases : forall s, ~ In 37 s -> (exists a r, argument s a r) \/ exists x, argument_fault s x.
Proof.
  intros s Hs. destruct (trim_parts s) as (w & r & -> & Hw & Hr & _). pose proof (blank_white _ Hw) as Hb. destruct r as [|c r].
  - right. exists EToken. apply af_token, tf_end, no_blank. rewrite app_nil_r. exact Hb.
  - cbn in Hr. destruct (N.eq_dec c 123) as [->|H1].
    + destruct (group_content_cases GKNormal r) as [(g & r' & E)|(r' & E & _)].
      * apply (group_content_balanced GKNormal 123 125) in E as [-> Hg]; [|left; auto]. left. do 2 eexists. apply arg_group; assumption.
      * right. eexists. apply af_open; [exact Hw|]. intros g z Hg ->.
        pose proof (proj2 (group_content_balanced GKNormal 123 125 (or_introl (conj eq_refl (conj eq_refl eq_refl))) (g ++ 125 :: z) g z) (conj eq_refl Hg)) as E'. congruence.
    + destruct (N.eq_dec c 92) as [->|H2].
      * destruct r as [|c r]; [right; eexists; apply af_token, tf_name; exact Hb|]. destruct (named_total c r) as (n & r' & Hn). left. do 2 eexists. apply arg_cs; eassumption.
      * left. do 2 eexists. apply arg_char; try assumption. intros ->. apply Hs. rewrite in_app_iff. right. left. reflexivity.
Qed.

Lemma argument_suffix : forall s a r, argument s a r -> suffix r s.
Proof.
  intros s a r H. apply read_argument in H as (g & E & _). pose proof (lex_argument_suffix s) as Hx. rewrite E in Hx. exact Hx.
Qed.

Lemma delimited_suffix : forall suf s a r, delimited suf s a r -> suffix r s.
Proof. intros suf s a r H. apply delimited_text in H as ->. exists (a ++ suf). rewrite app_assoc. reflexivity. Qed.

Lemma fault_pass : forall suf s z x, (forall r, passes suf z r -> passes suf s r) -> delimited_fault suf z x -> delimited_fault suf s x.
Proof.
  intros suf s z x H Hx. destruct Hx as [z r Hp Hl|z t Hp Ht Hn|z r Hp Hl Hn Hu].
  - eapply lf_short; [apply H; exact Hp|exact Hl].
  - eapply lf_comment; [apply H; exact Hp|exact Ht|exact Hn].
  - eapply lf_open; [apply H; exact Hp|exact Hl|exact Hn|exact Hu].
Qed.

Definition scan_fault (suf s : str) (v : cres) : Prop := match v with
  | CEof => delimited_fault suf s EMacroSuffixNotFound
  | CGroup => delimited_fault suf s (EUnbalancedGroup (Some GKNormal))
  | _ => True end.

Lemma scan_fault_pass : forall suf s z p v, (forall r, passes suf z r -> passes suf s r) -> scan_fault suf z v -> scan_fault suf s (capp p v).
Proof. intros suf s z p [? ?| | |] H Hv; cbn in *; try exact I; eapply fault_pass; eassumption. Qed.

Lemma com_parts : forall t, (exists u v, t = u ++ 10 :: v /\ ~ In 10 u) \/ ~ In 10 t.
Proof.
  induction t as [|c t IH]; [right; intros []|]. destruct (N.eq_dec c 10) as [->|Hc]; [left; exists [], t; split; [reflexivity|intros []]|].
  destruct IH as [(u & v & -> & Hu)|H]; [left; exists (c :: u), v; split; [reflexivity|intros [E|Hi]; [congruence|contradiction]]|right; intros [E|Hi]; [congruence|contradiction]].
Qed.

Lemma scan_cases : forall suf, suf <> [] -> forall n s, (length s <= n)%nat -> scan_fault suf s (cscan suf CNorm false s).
Proof.
  intros suf Hsuf. induction n as [|n IH]; intros s Hlen.
  - destruct s; [|cbn in Hlen; lia]. cbn [cscan]. destruct (has_bytes (blen suf) []) eqn:E; cbn [negb].
    + apply has_bytes_spec in E. destruct suf as [|c suf]; [congruence|]. cbn [blen] in E. pose proof (clen_pos c). lia.
    + cbn. apply (lf_short suf [] []); [apply ps_here|]. destruct suf as [|c suf]; [congruence|]. cbn [blen]. pose proof (clen_pos c). lia.
  - destruct s as [|c s].
    { apply IH. cbn. lia. }
    cbn [cscan]. destruct (has_bytes (blen suf) (c :: s)) eqn:Eb; cbn [negb].
    2:{ cbn. apply (lf_short suf _ (c :: s)); [apply ps_here|]. destruct (N.lt_ge_cases (blen (c :: s)) (blen suf)) as [|Hge]; [assumption|].
        apply has_bytes_spec in Hge. congruence. }
    destruct (starts_with suf (c :: s)) eqn:Ep; [exact I|]. pose proof (proj1 (starts_with_false _ _) Ep) as Hp. apply has_bytes_spec in Eb. cbn in Hlen.
    destruct (N.eqb_spec c 92) as [->|H1].
    { destruct s as [|x s]; [exact I|]. cbn [cscan]. cbn in Hlen. rewrite <- (capp_nil (cscan suf CNorm false s)), !capp_cons.
      apply (scan_fault_pass _ _ s); [intros r; apply ps_escape; exact Hp|apply IH; lia]. }
    destruct (N.eqb_spec c 37) as [->|H2].
    { destruct (com_parts s) as [(u & v & -> & Hu)|Hu].
      - rewrite cscan_com by exact Hu. rewrite capp_cons. rewrite app_length in Hlen. cbn in Hlen. apply (scan_fault_pass _ _ v); [intros r; apply ps_comment; assumption|apply IH; lia].
      - rewrite com_eof by exact Hu. cbn. apply (lf_comment suf _ s); [apply ps_here|exact Hu|exact Hp]. }
    destruct (N.eqb_spec c 123) as [->|H3].
    { destruct (gscan _ _ _ _ _ s) as [g r| |] eqn:Eg.
      - apply gscan_brace in Eg as [-> Hg].
        replace (cscan suf (cskip (length g + 1)) false (g ++ 125 :: r)) with (capp (g ++ [125]) (cscan suf CNorm false r)).
        + rewrite capp_cons. rewrite app_length in Hlen. cbn in Hlen. apply (scan_fault_pass _ _ r); [intros z; apply ps_group; assumption|apply IH; lia].
        + rewrite <- cscan_skip, <- app_assoc. cbn [app]. rewrite app_length. reflexivity.
      - apply (lf_open suf _ s); [apply ps_here|exact Eb|exact Hp|]. apply unclosed_iff. intros a r'. rewrite Eg. discriminate.
      - apply (lf_open suf _ s); [apply ps_here|exact Eb|exact Hp|]. apply unclosed_iff. intros a r'. rewrite Eg. discriminate. }
    rewrite <- (capp_nil (cscan suf CNorm false s)), capp_cons. apply (scan_fault_pass _ _ s); [intros r; apply ps_char; assumption|apply IH; lia].
Qed.

Lemma delimited_cases : forall suf s, suf <> [] -> no_end s -> (exists a r, delimited suf s a r) \/ exists x, delimited_fault suf s x.
Proof.
  intros suf s Hs He. pose proof (scan_cases suf Hs (length s) s (le_n _)) as H. destruct (cscan suf CNorm false s) as [a r| | |] eqn:E; [|right; eauto..|].
  - left. exists a, r. eapply cscan_sound; [exact Hs|apply le_n|exact E].
  - apply cscan_panic in E; [|exact Hs|discriminate]. destruct E as [[H1 H2]|[_ H1]]; [|discriminate]. destruct He as [He|He]; contradiction.
Qed.

Lemma arguments_cases : forall sufs s, ~ In 37 s -> no_end s -> (exists l r, arguments (map delimiter sufs) s l r) \/ exists x, arguments_fault (map delimiter sufs) s x.
Proof.
  induction sufs as [|suf sufs IH]; intros s Hc He; cbn [map]; [left; exists [], s; constructor|]. destruct suf as [|c suf]; cbn [delimiter].
  - destruct (argument_cases s Hc) as [(a & r & Ha)|[x Hx]]; [|right; exists x; apply sf_plain, Hx]. pose proof (argument_suffix _ _ _ Ha) as Hsuf.
    destruct (IH r) as [(l & r' & Hl)|[x Hx]]; [destruct Hsuf as [u ->]; intros Hi; apply Hc; rewrite in_app_iff; auto|eapply no_end_suffix; eassumption| |].
    + left. do 2 eexists. eapply args_plain; eassumption.
    + right. exists x. eapply sf_after_plain; eassumption.
  - assert (Hne : c :: suf <> []) by discriminate.
    destruct (delimited_cases (c :: suf) s Hne He) as [(a & r & Ha)|[x Hx]]; [|right; exists x; apply sf_delimited; assumption]. pose proof (delimited_suffix _ _ _ _ Ha) as Hsuf.
    destruct (IH r) as [(l & r' & Hl)|[x Hx]]; [destruct Hsuf as [u ->]; intros Hi; apply Hc; rewrite in_app_iff; auto|eapply no_end_suffix; eassumption| |].
    + left. do 2 eexists. eapply args_delimited; eassumption.
    + right. exists x. eapply sf_after_delimited; eassumption.
Qed.

Lemma delimiter_none : forall n, repeat None n = map delimiter (repeat [] n).
Proof. induction n as [|n IH]; [reflexivity|]. cbn [repeat map delimiter]. rewrite IH. reflexivity. Qed.

Lemma not_in_suffix : forall (c : char) r s, suffix r s -> ~ In c s -> ~ In c r.
Proof. intros c r s [u ->] H Hi. apply H. rewrite in_app_iff. auto. Qed.

Lemma substitutes_total : forall args rep, replacement (N.of_nat (length args)) rep -> exists out, substitutes args rep out.
Proof.
  intros args rep H. induction H as [|c rep Hc Hr [out IH]|rep Hr [out IH]|c i rep Hc Hi Hn Hr [out IH]].
  - exists []. constructor.
  - exists (c :: out). constructor; assumption.
  - exists (35 :: out). constructor; assumption.
  - assert (Hne : nth_error args (N.to_nat (i - 1)) <> None) by (apply nth_error_Some; lia). destruct (nth_error args (N.to_nat (i - 1))) as [a|] eqn:E; [|contradiction].
    exists (a ++ out). eapply sub_param; [exact Hc|lia|exact E|exact IH].
Qed.

Theorem use_cases : forall m d s, means m d -> plain_use m s -> (exists out r, expands m s out r) \/ exists x, use_fault m s x.
Proof.
  intros m d s Hm (Hc & He & Hx). destruct m as [pre sufs rep|pre sufs rep|k dflt rep|t]; cbn [means] in Hm; [|contradiction| |].
  - destruct Hm as (l & Hl & _). assert (Hr : replacement (N.of_nat (length sufs)) rep) by (apply replacement_iff; eauto).
    destruct (strip_prefix pre s) as [z|] eqn:Ep; [|right; eexists; apply uf_prefix; intros [z Hz]; assert (Ep' : strip_prefix pre s = Some z) by (apply strip_prefix_some; exact Hz); congruence].
    apply strip_prefix_some in Ep. subst s. assert (Hs : suffix z (pre ++ z)) by (exists pre; reflexivity).
    destruct (arguments_cases sufs z (not_in_suffix _ _ _ Hs Hc) (no_end_suffix _ _ Hs He)) as [(a & r & Ha)|[x Hf]]; [left|right; exists x; apply uf_def, Hf].
    pose proof (args_suffix _ _ _ _ Ha) as Hlen. rewrite map_length in Hlen. rewrite <- Hlen in Hr. destruct (substitutes_total _ _ Hr) as [out Ho].
    exists out, r. eapply exp_def; eassumption.
  - destruct Hm as (l & Hl & _). assert (Hr : replacement k rep) by (apply replacement_iff; eauto). destruct dflt as [dd|].
    + destruct Hx as [Hk Hx]. destruct (trim_parts s) as (w & r & Es & Hw & Hnw & Et).
      assert (Hdone : forall z a, (exists l r', arguments (map delimiter (repeat [] (N.to_nat (k - 1)))) z l r') ->
        exists out l r', arguments (repeat None (N.to_nat (k - 1))) z l r' /\ substitutes (a :: l) rep out).
      { intros z a (l' & r' & Hl'). rewrite <- delimiter_none in Hl'. pose proof (args_suffix _ _ _ _ Hl') as Hlen. rewrite repeat_length in Hlen.
        destruct (substitutes_total (a :: l') rep) as [out Ho]; [cbn [length]; rewrite Hlen; replace (N.of_nat (S (N.to_nat (k - 1)))) with k by lia; exact Hr|]. eauto. }
      destruct r as [|c r]; [|destruct (N.eq_dec c 91) as [->|Hn]].
      * destruct (arguments_cases (repeat [] (N.to_nat (k - 1))) s Hc He) as [H|[x H]].
        { destruct (Hdone s (123 :: dd ++ [125]) H) as (out & l' & r' & H1 & H2). left. do 2 eexists. eapply exp_default; [exact Hk|rewrite Et; discriminate|exact H1|exact H2]. }
        { right. exists x. rewrite <- delimiter_none in H. apply uf_default; [exact Hk|rewrite Et; discriminate|exact H]. }
      * destruct (Hx w r Hw Es) as (g & z & Hg & ->). assert (Hs : suffix z s) by (exists (w ++ 91 :: g ++ [93]); rewrite Es, <- app_assoc; cbn [app]; rewrite <- app_assoc; reflexivity).
        destruct (arguments_cases (repeat [] (N.to_nat (k - 1))) z (not_in_suffix _ _ _ Hs Hc) (no_end_suffix _ _ Hs He)) as [H|[x H]]; rewrite Es.
        { destruct (Hdone z (123 :: g ++ [125]) H) as (out & l' & r' & H1 & H2). left. do 2 eexists. eapply exp_optional; eassumption. }
        { right. exists x. rewrite <- delimiter_none in H. apply uf_optional; assumption. }
      * destruct (arguments_cases (repeat [] (N.to_nat (k - 1))) s Hc He) as [H|[x H]].
        { destruct (Hdone s (123 :: dd ++ [125]) H) as (out & l' & r' & H1 & H2). left. do 2 eexists. eapply exp_default; [exact Hk|rewrite Et; congruence|exact H1|exact H2]. }
        { right. exists x. rewrite <- delimiter_none in H. apply uf_default; [exact Hk|rewrite Et; congruence|exact H]. }
    + destruct (arguments_cases (repeat [] (N.to_nat k)) s Hc He) as [(a & r & Ha)|[x Hf]]; rewrite <- delimiter_none in *; [left|right; exists x; apply uf_command, Hf].
      pose proof (args_suffix _ _ _ _ Ha) as Hlen. rewrite repeat_length in Hlen.
      destruct (substitutes_total a rep) as [out Ho]; [rewrite Hlen, N2Nat.id; exact Hr|]. exists out, r. eapply exp_command; eassumption.
  - left. exists (written t), s. constructor.
Qed.

(** ** Faults after a list of definitions *)

Theorem use_fault_reported : forall e d b use n m s x, preamble [] e d (b ++ 92 :: use) -> blank b -> named use n s ->
  find n e = Some m -> use_fault m s x ->
  shows (new_parser d) ([], EndError x) /\
  exists i pe q, run i (new_parser d) = ([ItError pe], OFuel, q) /\ pe_kind pe = x /\ represents e (p_macros q).
Proof.
  intros e d b use n m s x Hpre Hb Hn Hf H. eapply first_error_spans; [exact Hpre|]. intros p c Hs Hbuf Hc Hm Hsp.
  assert (Hl : lex_token (stxt c) = (Ok (TCs n), s)) by (rewrite Hc; apply token_cs; assumption).
  assert (Hr := represents_find _ _ n Hm). rewrite Hf in Hr. destruct (ctx_get (p_macros p) n) as [dd|] eqn:Eg; [|contradiction].
  pose proof (use_fails _ _ _ _ Hr H) as Hx. exists (suffix_slice c s).
  rewrite (next_step_text _ _ _ _ Hs), (not_blank _ _ _ Hl), parse_fuel_S, parse_eq. cbn [q_ist of_parser i_content i_macros q_spans].
  rewrite Hl, Eg, Hx, Hsp. reflexivity.
Qed.

Lemma name_fails : forall s x, name_fault s x -> exists r, control_sequence s = (Err x, r).
Proof. intros s x [| |c z Hc]; [eexists; reflexivity..|]. cbn [control_sequence]. apply N.eqb_neq in Hc. rewrite Hc. eauto. Qed.

Lemma let_fails : forall s x, let_fault s x -> exists r, let_assignment s = (Err x, r).
Proof.
  intros s x [z y H|z n r y Hn Hr H|z n r y Hn H]; unfold let_assignment, bind.
  - destruct (name_fails _ _ H) as [r E]. rewrite E. eauto.
  - cbn [control_sequence N.eqb Pos.eqb]. rewrite (rhs_cs_named _ _ _ Hn). unfold get. destruct (strip_char 61 (trim_start r)) as [u|] eqn:E; [apply strip_char_some in E; exfalso; exact (Hr u E)|].
    destruct (token_fails _ _ H) as [r' E']. cbn [ret]. rewrite E'. eauto.
  - cbn [control_sequence N.eqb Pos.eqb]. rewrite (rhs_cs_named _ _ _ Hn). unfold get. cbn [trim_start]. change (is_ws 61) with false. cbn [strip_char N.eqb Pos.eqb]. unfold put.
    destruct (token_fails _ _ H) as [r' E']. rewrite E'. eauto.
Qed.

Lemma futurelet_fails : forall s x, futurelet_fault s x -> exists r, futurelet_assignment s = (Err x, r).
Proof.
  intros s x [z y H|z n r y Hn H|z n r t u y Hn Ht H]; unfold futurelet_assignment, bind.
  - destruct (name_fails _ _ H) as [r E]. rewrite E. eauto.
  - cbn [control_sequence N.eqb Pos.eqb]. rewrite (rhs_cs_named _ _ _ Hn). unfold get. destruct (token_fails _ _ H) as [r' E']. rewrite E'. eauto.
  - cbn [control_sequence N.eqb Pos.eqb]. rewrite (rhs_cs_named _ _ _ Hn). unfold get. destruct (token_read _ _ _ Ht) as (tk & Etk & _). rewrite Etk.
    destruct (token_fails _ _ H) as [r' E']. rewrite E'. eauto.
Qed.

(** A command that fails where it reads its own text. *)
Lemma prim_fails : forall e d b t n s x, preamble [] e d (b ++ 92 :: t) -> blank b -> named t n s -> find n e = None ->
  (forall st, stxt (i_content st) = s -> exists c2, handle_prim n st = (Err x, set_content c2 st)) ->
  shows (new_parser d) ([], EndError x) /\
  exists i pe q, run i (new_parser d) = ([ItError pe], OFuel, q) /\ pe_kind pe = x /\ represents e (p_macros q).
Proof.
  intros e d b t n s x Hpre Hb Hn Hf H. eapply first_error; [exact Hpre|]. intros p c Hs Hbuf Hc Hm.
  assert (Hl : lex_token (stxt c) = (Ok (TCs n), s)) by (rewrite Hc; apply token_cs; assumption).
  rewrite (prim_step _ _ _ _ _ _ Hs Hl (represents_none _ _ _ Hm Hf)).
  destruct (H (q_ist (of_parser p (suffix_slice c s) None)) eq_refl) as [c2 E]. exists c2. unfold run_inner, parse_atom.
  rewrite (bind_err _ _ _ _ _ _ _ E). reflexivity.
Qed.

Theorem assignment_fault_reported : forall e d b t n s x, preamble [] e d (b ++ 92 :: t) -> blank b -> named t n s -> find n e = None ->
  assignment_fault n s x ->
  shows (new_parser d) ([], EndError x) /\
  exists i pe q, run i (new_parser d) = ([ItError pe], OFuel, q) /\ pe_kind pe = x /\ represents e (p_macros q).
Proof.
  intros e d b t n s x Hpre Hb Hn Hf H. eapply prim_fails; [exact Hpre|exact Hb|exact Hn|exact Hf|]. intros st Hst.
  destruct H as [s x H|s x H|s x H]; unfold handle_prim; cbn [hprim]; unfold hprim_body.
  - replace (lookup_prim (lit "def")) with PDef by (vm_compute; reflexivity). destruct (name_fails _ _ H) as [r E].
    unfold bind, lexc. rewrite Hst. unfold lex_definition, bind. rewrite E. eexists. reflexivity.
  - replace (lookup_prim (lit "let")) with PLet by (vm_compute; reflexivity). destruct (let_fails _ _ H) as [r E].
    unfold bind, lexc. rewrite Hst. rewrite E. eexists. reflexivity.
  - replace (lookup_prim (lit "futurelet")) with PFuturelet by (vm_compute; reflexivity). destruct (futurelet_fails _ _ H) as [r E].
    unfold bind, lexc, get. rewrite Hst. rewrite E. eexists. reflexivity.
Qed.

Theorem use_total : forall e d b use n m s, preamble [] e d (b ++ 92 :: use) -> blank b -> named use n s -> find n e = Some m -> plain_use m s ->
  (exists out r, expands m s out r) \/ exists x, use_fault m s x /\ shows (new_parser d) ([], EndError x).
Proof.
  intros e d b use n m s Hpre Hb Hn Hf Hp.
  destruct (preamble_runs _ _ _ _ Hpre _ (ready_new d)) as (p & (c & E & B & T & R) & _).
  assert (Hr := represents_find _ _ n R). rewrite Hf in Hr. destruct (ctx_get (p_macros p) n) as [dd|]; [|contradiction].
  destruct (use_cases _ _ _ Hr Hp) as [H|[x Hx]]; [left; exact H|]. right. exists x. split; [exact Hx|]. eapply use_fault_reported; eassumption.
Qed.

(** ** Comments before an argument *)

Lemma blank_append : forall a b, blank a -> blank b -> blank (a ++ b).
Proof.
  intros a b Ha Hb. induction Ha as [|c s Hc Hs IH|t s Ht Hs IH]; [exact Hb|apply blank_ws; assumption|].
  cbn [app]. rewrite <- app_assoc. cbn [app]. apply blank_comment; assumption.
Qed.

Lemma argument_after : forall c s a r, blank c -> argument s a r -> (forall g, a <> 123 :: g) -> argument (c ++ s) a r.
Proof.
  intros c s a r Hc H Ha. destruct H as [w g r Hw Hg|b x r Hb H1 H2 H3 H4|b s n r Hb Hn].
  - exfalso. exact (Ha _ eq_refl).
  - rewrite app_assoc. apply arg_char; try assumption. apply blank_append; assumption.
  - rewrite app_assoc. apply arg_cs; [apply blank_append; assumption|exact Hn].
Qed.

Theorem comment_skipped : forall e1 e2 d1 d2 n pre sufs rep b use c s a r1 l r out v v',
  preamble [] e1 d1 (b ++ 92 :: use) -> preamble [] e2 d2 (out ++ r) -> (forall n, find n e1 = find n e2) ->
  find n e1 = Some (ByDef pre ([] :: sufs) rep) -> blank b -> named use n (pre ++ c ++ s) ->
  blank c -> argument s a r1 -> (forall g, a <> 123 :: g) -> arguments (map delimiter sufs) r1 l r -> substitutes (a :: l) rep out ->
  shows (new_parser d1) v -> shows (new_parser d2) v' -> complete v -> complete v' -> v = v'.
Proof.
  intros e1 e2 d1 d2 n pre sufs rep b use c s a r1 l r out v v' H1 H2 Hsame Hf Hb Hn Hc Ha Hg Hl Ho.
  eapply preamble_use; [exact H1|exact H2|exact Hsame|exact Hf|exact Hb|exact Hn|]. eapply exp_def; [|exact Ho].
  cbn [map delimiter]. eapply args_plain; [apply argument_after; [exact Hc|exact Ha|exact Hg]|exact Hl].
Qed.
