(** * MacroFacts: definitions are validated, expansion substitutes. *)

From Coq Require Import List NArith ZArith Bool Lia Arith.
From Verif Require Import Base Float32 Event Tables Lex Macros SpecLex LexFacts LexMore SpecNum SpecMacro LexNum Keep.
Import ListNotations.
Open Scope N_scope.

(** ** The replacement text *)

(** [parse_replacement] without splitting. *)
Lemma split_incl_app : forall c u t, ~ In c u -> split_incl c (u ++ c :: t) = (u ++ [c]) :: split_incl c t.
Proof.
  intros c. induction u as [|x u IH]; intros t H; cbn [app split_incl].
  - rewrite N.eqb_refl. reflexivity.
  - destruct (N.eqb_spec x c) as [->|Hx]; [exfalso; apply H; left; reflexivity|].
    rewrite IH by (intros Hi; apply H; right; exact Hi). reflexivity.
Qed.

Lemma split_incl_none : forall c u, ~ In c u -> split_incl c u = match u with [] => [] | _ => [u] end.
Proof.
  intros c. induction u as [|x u IH]; intros H; [reflexivity|]. cbn [split_incl].
  destruct (N.eqb_spec x c) as [->|Hx]; [exfalso; apply H; left; reflexivity|].
  rewrite IH by (intros Hi; apply H; right; exact Hi). destruct u; reflexivity.
Qed.

Lemma ends_none : forall c u, ~ In c u -> ends_with_char c u = false.
Proof.
  intros c. induction u as [|x u IH]; intros H; [reflexivity|]. cbn [ends_with_char]. destruct u as [|y u].
  - apply N.eqb_neq. intros ->. apply H. left. reflexivity.
  - apply IH. intros Hi. apply H. right. exact Hi.
Qed.

Lemma rep_nohash : forall n u, ~ In 35 u -> parse_replacement u n = Ok (match u with [] => [] | _ => [RStr u] end).
Proof.
  intros n u H. unfold parse_replacement. rewrite split_incl_none by exact H. destruct u as [|x u]; [reflexivity|].
  cbn [rep_loop is_nil]. rewrite ends_none by exact H. reflexivity.
Qed.

Lemma rep_end_hash : forall n u, ~ In 35 u -> parse_replacement (u ++ [35]) n = Err EStandaloneHashSign.
Proof.
  intros n u H. unfold parse_replacement. rewrite split_incl_app by exact H. cbn [split_incl rep_loop].
  rewrite ends_with_last. destruct u; reflexivity.
Qed.

Definition and_then (f : list rtoken -> list rtoken) (r : res (list rtoken)) : res (list rtoken) :=
  match r with Ok l => Ok (f l) | _ => r end.

Lemma rep_two_hash : forall n u t, ~ In 35 u ->
  parse_replacement (u ++ 35 :: 35 :: t) n = and_then (cons (RStr (u ++ [35]))) (parse_replacement t n).
Proof.
  intros n u t H. unfold parse_replacement. rewrite split_incl_app by exact H.
  cbn [split_incl]. change (35 =? 35) with true. cbn iota. cbn [rep_loop]. change (35 =? 35) with true. cbn iota.
  destruct (split_incl 35 t) as [|n2 rest]; [reflexivity|]. destruct (rep_loop n n2 rest); reflexivity.
Qed.

(** The tail of the piece that starts with a digit. *)
Lemma rep_tail : forall n c t, c <> 35 -> exists p ps, split_incl 35 (c :: t) = (c :: p) :: ps /\
  rep_loop n p ps = parse_replacement t n.
Proof.
  intros n c t Hc. cbn [split_incl]. destruct (N.eqb_spec c 35); [contradiction|].
  unfold parse_replacement. destruct (split_incl 35 t) as [|p ps]; [exists [], []|exists p, ps]; split; reflexivity.
Qed.

Lemma digit_not_hash : forall c, is_digit c = true -> c <> 35.
Proof. intros c H ->. discriminate. Qed.

Lemma rep_digit : forall n u c t, ~ In 35 u -> is_digit c = true ->
  parse_replacement (u ++ 35 :: c :: t) n =
  if (n <? digit_val c) || (digit_val c =? 0) then Err (EIncorrectReplacementParams (digit_val c) n)
  else and_then (fun l => match u with [] => [] | _ => [RStr u] end ++ RParam (digit_val c) :: l) (parse_replacement t n).
Proof.
  intros n u c t Hu Hc. unfold parse_replacement at 1. rewrite split_incl_app by exact Hu.
  destruct (rep_tail n c t (digit_not_hash c Hc)) as (p & ps & -> & Ht). cbn [rep_loop].
  destruct (N.eqb_spec c 35) as [E|_]; [exfalso; exact (digit_not_hash c Hc E)|]. rewrite Hc.
  destruct (_ || _); [reflexivity|]. rewrite Ht. destruct (parse_replacement t n); try reflexivity.
  cbn [and_then]. rewrite removelast_last, blen_app. destruct u as [|x u].
  - reflexivity.
  - destruct (N.eqb_spec (blen (x :: u) + blen [35]) 1) as [E|_]; [|reflexivity].
    cbn [blen] in E. pose proof (clen_pos x). change (clen 35) with 1 in E. lia.
Qed.

Lemma rep_other : forall n u c t, ~ In 35 u -> is_digit c = false -> c <> 35 ->
  parse_replacement (u ++ 35 :: c :: t) n = Err EStandaloneHashSign.
Proof.
  intros n u c t Hu Hc Hn. unfold parse_replacement at 1. rewrite split_incl_app by exact Hu.
  destruct (rep_tail n c t Hn) as (p & ps & -> & Ht). cbn [rep_loop].
  destruct (N.eqb_spec c 35); [contradiction|]. rewrite Hc. reflexivity.
Qed.

(** Cutting a text at its first hash sign. *)
Lemma first_hash : forall t, ~ In 35 t \/ exists u v, t = u ++ 35 :: v /\ ~ In 35 u.
Proof.
  intros t. destruct (split_once_char 35 t) as [[u v]|] eqn:E.
  - right. exists u, v. apply split_once_char_sound in E. exact E.
  - left. apply split_once_char_none. exact E.
Qed.

Lemma subst_prefix : forall args u rep out, ~ In 35 u -> substitutes args rep out -> substitutes args (u ++ rep) (u ++ out).
Proof.
  intros args. induction u as [|c u IH]; intros rep out H Hs; [exact Hs|]. cbn [app]. constructor.
  - intros ->. apply H. left. reflexivity.
  - apply IH; [intros Hi; apply H; right; exact Hi|exact Hs].
Qed.

Lemma replacement_prefix : forall n u rep, ~ In 35 u -> replacement n rep -> replacement n (u ++ rep).
Proof.
  intros n. induction u as [|c u IH]; intros rep H Hs; [exact Hs|]. cbn [app]. constructor.
  - intros ->. apply H. left. reflexivity.
  - apply IH; [intros Hi; apply H; right; exact Hi|exact Hs].
Qed.

Lemma replacement_prefix_inv : forall n u rep, ~ In 35 u -> replacement n (u ++ rep) -> replacement n rep.
Proof.
  intros n. induction u as [|c u IH]; intros rep H Hs; [exact Hs|]. cbn [app] in Hs. inversion Hs; subst.
  - apply IH; [intros Hi; apply H; right; exact Hi|assumption].
  - exfalso. apply H. left. reflexivity.
  - exfalso. apply H. left. reflexivity.
Qed.

Lemma expand_rep_cons_str : forall args u l, expand_rep args (match u with [] => [] | _ => [RStr u] end ++ l) =
  match expand_rep args l with Some r => Some (u ++ r) | None => None end.
Proof.
  intros args u l. destruct u as [|x u]; cbn [app]; [destruct (expand_rep args l); reflexivity|].
  cbn [expand_rep]. reflexivity.
Qed.

(** What [parse_replacement] accepts is valid, and expands to the substituted text. *)
Lemma replacement_sound : forall k rep n l, (length rep <= k)%nat -> parse_replacement rep n = Ok l ->
  replacement n rep /\
  forall args, N.of_nat (length args) = n -> exists out, expand_rep args l = Some out /\ substitutes (map arg_text args) rep out.
Proof.
  induction k as [|k IH]; intros rep n l Hk H.
  { destruct rep; [|cbn in Hk; lia]. injection H as <-. split; [constructor|]. intros args _. exists []. split; constructor. }
  destruct (first_hash rep) as [Hn|(u & v & -> & Hu)].
  { rewrite rep_nohash in H by exact Hn. injection H as <-. split.
    - rewrite <- (app_nil_r rep). apply replacement_prefix; [exact Hn|constructor].
    - intros args _. exists rep. split.
      + rewrite <- (app_nil_r (match rep with [] => [] | _ => [RStr rep] end)), expand_rep_cons_str. cbn [expand_rep].
        rewrite app_nil_r. reflexivity.
      + rewrite <- (app_nil_r rep) at 1 2. apply subst_prefix; [exact Hn|constructor]. }
  rewrite app_length in Hk. cbn [length] in Hk.
  destruct v as [|c v]; [rewrite rep_end_hash in H by exact Hu; discriminate|]. cbn [length] in Hk.
  destruct (N.eq_dec c 35) as [->|Hc].
  - rewrite rep_two_hash in H by exact Hu. destruct (parse_replacement v n) as [l'|?|?|] eqn:E; try discriminate.
    cbn [and_then] in H. injection H as <-. apply IH in E; [|lia]. destruct E as [E1 E2]. split.
    + apply replacement_prefix; [exact Hu|]. apply rep_hash. exact E1.
    + intros args Ha. destruct (E2 args Ha) as (out & Eo & Hs). exists (u ++ 35 :: out). split.
      * cbn [expand_rep]. rewrite Eo. rewrite <- app_assoc. reflexivity.
      * apply subst_prefix; [exact Hu|]. apply sub_hash. exact Hs.
  - destruct (is_digit c) eqn:Ed; [|rewrite rep_other in H by assumption; discriminate].
    rewrite rep_digit in H by assumption. destruct ((n <? digit_val c) || (digit_val c =? 0)) eqn:Eb; [discriminate|].
    apply orb_false_elim in Eb as [Eb1 Eb2]. apply N.ltb_ge in Eb1. apply N.eqb_neq in Eb2.
    destruct (parse_replacement v n) as [l'|?|?|] eqn:E; try discriminate. cbn [and_then] in H. injection H as <-.
    apply IH in E; [|lia]. destruct E as [E1 E2]. apply is_digit_iff in Ed. unfold digit, digit_val in *.
    assert (Ec : c = 48 + (c - 48)) by lia. split.
    + apply replacement_prefix; [exact Hu|]. apply (rep_param n c (c - 48)); [exact Ec|lia|lia|exact E1].
    + intros args Ha. destruct (E2 args Ha) as (out & Eo & Hs).
      assert (Hne : nth_error args (N.to_nat (c - 48 - 1)) <> None) by (apply nth_error_Some; lia).
      destruct (nth_error args (N.to_nat (c - 48 - 1))) as [a|] eqn:En; [|contradiction].
      exists (u ++ arg_text a ++ out). split.
      * rewrite expand_rep_cons_str. cbn [expand_rep]. rewrite Eo, En. reflexivity.
      * apply subst_prefix; [exact Hu|]. apply (sub_param _ c (c - 48)); [exact Ec|lia| |exact Hs].
        rewrite nth_error_map, En. reflexivity.
Qed.

Lemma replacement_complete : forall k rep n, (length rep <= k)%nat -> replacement n rep -> exists l, parse_replacement rep n = Ok l.
Proof.
  induction k as [|k IH]; intros rep n Hk H.
  { destruct rep; [|cbn in Hk; lia]. exists []. reflexivity. }
  destruct (first_hash rep) as [Hn|(u & v & -> & Hu)]; [rewrite rep_nohash by exact Hn; eauto|].
  apply replacement_prefix_inv in H; [|exact Hu]. rewrite app_length in Hk. cbn [length] in Hk. inversion H; subst.
  - contradiction.
  - destruct (IH rep n) as [l El]; [cbn [length] in Hk; lia|assumption|]. rewrite rep_two_hash by exact Hu. rewrite El. cbn [and_then]. eexists. reflexivity.
  - destruct (IH rep n) as [l El]; [cbn [length] in Hk; lia|assumption|]. rewrite rep_digit.
    + unfold digit_val. replace (48 + i - 48) with i by lia.
      destruct (N.ltb_spec n i); [lia|]. destruct (N.eqb_spec i 0); [lia|]. cbn [orb]. rewrite El. cbn [and_then]. eexists. reflexivity.
    + exact Hu.
    + apply is_digit_iff. unfold digit. lia.
Qed.

Lemma replacement_iff : forall rep n, replacement n rep <-> exists l, parse_replacement rep n = Ok l.
Proof.
  intros rep n. split; [apply (replacement_complete (length rep)); lia|].
  intros [l H]. apply (replacement_sound (length rep)) in H; [tauto|lia].
Qed.

(** A replacement text is substituted in one way only. *)
Lemma substitutes_fun : forall args rep out out', substitutes args rep out -> substitutes args rep out' -> out = out'.
Proof.
  intros args rep out out' H. revert out'. induction H; intros out' H'; inversion H'; subst; try congruence; try lia.
  - f_equal. auto.
  - f_equal. auto.
  - assert (i0 = i) by lia. subst. f_equal; [congruence|auto].
Qed.

(** ** The parameter text *)

Lemma split_char_none : forall c u, ~ In c u -> split_char c u = [u].
Proof.
  intros c. induction u as [|x u IH]; intros H; [reflexivity|]. cbn [split_char].
  rewrite IH by (intros Hi; apply H; right; exact Hi).
  destruct (N.eqb_spec x c) as [->|]; [exfalso; apply H; left; reflexivity|reflexivity].
Qed.

Lemma split_char_app : forall c u t, ~ In c u -> split_char c (u ++ c :: t) = u :: split_char c t.
Proof.
  intros c. induction u as [|x u IH]; intros t H; cbn [app split_char].
  - rewrite N.eqb_refl. reflexivity.
  - rewrite IH by (intros Hi; apply H; right; exact Hi).
    destruct (N.eqb_spec x c) as [->|]; [exfalso; apply H; left; reflexivity|reflexivity].
Qed.

Lemma split_char_ne : forall c t, split_char c t <> [].
Proof.
  intros c [|x t]; [discriminate|]. cbn [split_char]. destruct (x =? c); [discriminate|]. destruct (split_char c t); discriminate.
Qed.

(** Splitting the parameters. *)
Lemma split_params : forall sufs i pre, Forall (fun s => ~ In 35 s) sufs -> ~ In 35 pre -> 1 <= i ->
  split_char 35 (pre ++ parameters i sufs) = pre :: (fix pieces i l := match l with [] => [] | s :: l' => (48 + i :: s) :: pieces (i + 1) l' end) i sufs.
Proof.
  induction sufs as [|s sufs IH]; intros i pre Hs Hp Hi; cbn [parameters].
  - rewrite app_nil_r. rewrite split_char_none by exact Hp. reflexivity.
  - inversion Hs; subst. rewrite split_char_app by exact Hp. f_equal.
    change (48 + i :: s ++ parameters (i + 1) sufs) with ((48 + i :: s) ++ parameters (i + 1) sufs).
    rewrite IH; [reflexivity|assumption| |lia]. intros [E|Hin]; [lia|contradiction].
Qed.

Lemma opt_str_delimiter : forall s, opt_str s = delimiter s.
Proof. intros [|? ?]; reflexivity. Qed.

Lemma parse_params_ok : forall (sufs : list str) i, 1 <= i -> i + N.of_nat (length sufs) <= 10 ->
  parse_params i ((fix pieces i l := match l with [] => [] | s :: l' => (48 + i :: s) :: pieces (i + 1) l' end) i sufs) =
  Ok (map delimiter sufs).
Proof.
  induction sufs as [|s sufs IH]; intros i Hi Hl; [reflexivity|]. cbn [length] in Hl. cbn [parse_params].
  rewrite (proj2 (is_digit_iff (48 + i))) by (unfold digit; lia). unfold digit_val.
  replace (48 + i - 48) with i by lia. rewrite N.eqb_refl. rewrite IH by lia. rewrite opt_str_delimiter. reflexivity.
Qed.

Lemma parse_params_inv : forall pieces i l, 1 <= i -> parse_params i pieces = Ok l ->
  exists sufs : list str, pieces = (fix pieces i l := match l with [] => [] | s :: l' => (48 + i :: s) :: pieces (i + 1) l' end) i sufs /\
    l = map delimiter sufs /\ (sufs = [] \/ i + N.of_nat (length sufs) <= 10).
Proof.
  induction pieces as [|p ps IH]; intros i l Hi H; cbn [parse_params] in H.
  - injection H as <-. exists []. auto.
  - destruct p as [|c suf]; [discriminate|]. destruct (is_digit c) eqn:Ed; [|discriminate].
    destruct (N.eqb_spec (digit_val c) i) as [Ei|]; [|discriminate].
    destruct (parse_params (i + 1) ps) as [l'|?|?|] eqn:E; try discriminate. injection H as <-.
    apply IH in E; [|lia]. destruct E as (sufs & -> & -> & Hl). exists (suf :: sufs).
    apply is_digit_iff in Ed. unfold digit, digit_val in *.
    split; [replace c with (48 + i) by lia; reflexivity|]. split; [rewrite opt_str_delimiter; reflexivity|].
    right. cbn [length]. destruct Hl as [->|Hl]; cbn [length]; lia.
Qed.

Lemma split_join : forall c t u ps, split_char c t = u :: ps -> ~ In c u /\ Forall (fun p => ~ In c p) ps /\
  t = u ++ flat_map (fun p => c :: p) ps.
Proof.
  intros c. induction t as [|x t IH]; intros u ps H; cbn [split_char] in H.
  - injection H as <- <-. split; [intros []|]. split; [constructor|reflexivity].
  - destruct (split_char c t) as [|v qs] eqn:E; [exfalso; eapply split_char_ne; exact E|].
    destruct (IH _ _ eq_refl) as (H1 & H2 & ->). destruct (N.eqb_spec x c) as [->|Hx].
    + injection H as <- <-. split; [intros []|]. split; [constructor; assumption|]. reflexivity.
    + injection H as <- <-. split; [intros [->|Hi]; [contradiction|contradiction]|]. split; [exact H2|reflexivity].
Qed.

Lemma pieces_text : forall sufs i, flat_map (fun p => 35 :: p)
  ((fix pieces i l := match l with [] => [] | s :: l' => (48 + i :: s) :: pieces (i + 1) l' end) i sufs) = parameters i sufs.
Proof.
  induction sufs as [|s sufs IH]; intros i; [reflexivity|]. cbn [flat_map parameters app]. rewrite IH. reflexivity.
Qed.

Lemma pieces_nohash : forall sufs i, Forall (fun p => ~ In 35 p)
  ((fix pieces i l := match l with [] => [] | s :: l' => (48 + i :: s) :: pieces (i + 1) l' end) i sufs) ->
  Forall (fun s => ~ In 35 s) sufs.
Proof.
  induction sufs as [|s sufs IH]; intros i H; [constructor|]. inversion H; subst. constructor; [|eapply IH; eassumption].
  intros Hi. match goal with H : ~ In 35 _ |- _ => apply H end. right. exact Hi.
Qed.

Lemma ends_hash_cases : forall t : str, (ends_with_char 35 t = false) \/ (exists u, t = u ++ [35] /\ ends_with_char 35 t = true).
Proof.
  intros t. destruct (ends_with_char 35 t) eqn:E; [|left; reflexivity]. right.
  destruct (exists_last (l := t)) as (u & c & ->); [intros ->; discriminate|]. rewrite ends_with_last in E. apply N.eqb_eq in E.
  subst. exists u. auto.
Qed.

(** A definition is accepted exactly when its parameters are in order and its
    replacement refers only to them; [brace]: the parameter text ends with a
    hash sign. *)
Definition parameter_text (brace : bool) (pre : str) (sufs : list str) : str :=
  pre ++ parameters 1 sufs ++ (if brace then [35] else [] : str).

Lemma parameters_ends : forall sufs i, Forall (fun s => ~ In 35 s) sufs -> 1 <= i ->
  forall pre, ~ In 35 pre -> ends_with_char 35 (pre ++ parameters i sufs) = false.
Proof.
  induction sufs as [|s sufs IH]; intros i Hs Hi pre Hp; cbn [parameters].
  - rewrite app_nil_r. apply ends_none. exact Hp.
  - inversion Hs; subst.
    assert (H : ends_with_char 35 ((48 + i :: s) ++ parameters (i + 1) sufs) = false).
    { apply IH; [assumption|lia|]. intros [E|Hin]; [lia|contradiction]. }
    clear IH. induction pre as [|x pre IHp]; cbn [app].
    + cbn [app] in H. cbn [ends_with_char]. exact H.
    + cbn [ends_with_char]. destruct (pre ++ 35 :: 48 + i :: s ++ parameters (i + 1) sufs) eqn:E; [destruct pre; discriminate|].
      apply IHp. intros Hin. apply Hp. right. exact Hin.
Qed.

Lemma make_macro_iff : forall ptext rep d, make_macro ptext rep = Ok d <->
  exists brace pre (sufs : list str) l, ptext = parameter_text brace pre sufs /\ ~ In 35 pre /\ Forall (fun s => ~ In 35 s) sufs /\
    (length sufs <= 9)%nat /\ parse_replacement rep (N.of_nat (length sufs)) = Ok l /\
    d = MDMacro (delimiter pre) (map delimiter sufs) brace l.
Proof.
  intros ptext rep d. unfold make_macro, parameter_text. split.
  - intros H.
    assert (Hb : exists (brace : bool) (t : str), ptext = t ++ (if brace then [35] else [] : str) /\ ends_with_char 35 ptext = brace /\
       (if ends_with_char 35 ptext then removelast ptext else ptext) = t).
    { destruct (ends_hash_cases ptext) as [E|(u & -> & E)].
      - exists false, ptext. rewrite E, app_nil_r. auto.
      - exists true, u. rewrite E, removelast_last. auto. }
    destruct Hb as (brace & t & -> & Ebr & Et). rewrite Et, Ebr in H.
    destruct (split_char 35 t) as [|u ps] eqn:Es; [discriminate|]. apply split_join in Es as (H1 & H2 & ->).
    destruct (parse_params 1 ps) as [params|?|?|] eqn:Ep; try discriminate.
    apply parse_params_inv in Ep; [|lia]. destruct Ep as (sufs & -> & -> & Hl).
    rewrite map_length in H. destruct (parse_replacement rep _) as [l|?|?|] eqn:Er; try discriminate. injection H as <-.
    exists brace, u, sufs, l. rewrite pieces_text, <- app_assoc. split; [reflexivity|]. split; [exact H1|].
    split; [eapply pieces_nohash; exact H2|]. split; [clear - Hl; destruct Hl as [Hl|Hl]; [subst sufs; apply Nat.le_0_l|lia]|]. split; [exact Er|].
    rewrite opt_str_delimiter. reflexivity.
  - intros (brace & pre & sufs & l & -> & Hp & Hs & Hl & Hr & ->).
    assert (E : ends_with_char 35 (pre ++ parameters 1 sufs ++ (if brace then [35] else [] : str)) = brace).
    { destruct brace; [rewrite app_assoc; apply ends_with_last|]. rewrite app_nil_r. apply parameters_ends; auto; lia. }
    rewrite E. assert (E2 : (if brace then removelast (pre ++ parameters 1 sufs ++ (if brace then [35] else [] : str))
       else pre ++ parameters 1 sufs ++ (if brace then [35] else [] : str)) = pre ++ parameters 1 sufs).
    { destruct brace; [rewrite app_assoc, removelast_last; reflexivity|rewrite app_nil_r; reflexivity]. }
    rewrite E2, split_params by (auto; lia). rewrite parse_params_ok by lia. rewrite map_length, Hr, opt_str_delimiter. reflexivity.
Qed.

(** ** Reading arguments *)

Lemma is_alpha_iff : forall c, is_alpha c = true <-> letter c.
Proof. intros c. unfold is_alpha, letter. rewrite orb_true_iff, !andb_true_iff, !N.leb_le. tauto. Qed.

Lemma trim_white : forall w r, Forall white w -> not_next white r -> trim_start (w ++ r) = r.
Proof.
  induction w as [|c w IH]; intros r Hw Hr; cbn [app].
  - destruct r as [|c r]; [reflexivity|]. cbn [trim_start]. cbn in Hr. unfold white in Hr. destruct (is_ws c); [contradiction|reflexivity].
  - inversion Hw as [|? ? Hc Hw']; subst. cbn [trim_start]. unfold white in Hc. rewrite Hc. apply IH; assumption.
Qed.

Lemma rhs_cs_named : forall s n r, named s n r -> rhs_control_sequence s = (Ok n, r).
Proof.
  intros s n r H. destruct H as [n w r Hne Hl Hw Hn Hr|c w r Hc Hw Hr].
  - destruct n as [|c n]; [contradiction|]. inversion Hl as [|? ? Hc Hl']; subst. cbn [app rhs_control_sequence].
    rewrite (proj2 (is_alpha_iff c) Hc). change (c :: n ++ w ++ r) with ((c :: n) ++ w ++ r).
    rewrite (span_while_app is_alpha letter is_alpha_iff) by assumption. rewrite trim_white by assumption. reflexivity.
  - cbn [rhs_control_sequence]. destruct (is_alpha c) eqn:E; [apply is_alpha_iff in E; contradiction|].
    rewrite trim_white by assumption. reflexivity.
Qed.

Lemma skip_blank_stop : forall c s, ~ white c -> c <> 37 -> skip_blank false (c :: s) = c :: s.
Proof.
  intros c s H1 H2. cbn [skip_blank]. unfold white in H1. destruct (is_ws c); [contradiction|].
  destruct (N.eqb_spec c 37); [contradiction|reflexivity].
Qed.

Lemma token_char : forall b c r, blank b -> ~ white c -> c <> 37 -> c <> 92 -> lex_token (b ++ c :: r) = (Ok (TChr (c :: r)), r).
Proof.
  intros b c r Hb H1 H2 H3. rewrite lex_token_blank by exact Hb. unfold lex_token. rewrite skip_blank_stop by assumption.
  destruct (N.eqb_spec c 92); [contradiction|reflexivity].
Qed.

Lemma token_cs : forall b s n r, blank b -> named s n r -> lex_token (b ++ 92 :: s) = (Ok (TCs n), r).
Proof.
  intros b s n r Hb Hn. rewrite lex_token_blank by exact Hb. unfold lex_token.
  rewrite skip_blank_stop by (unfold white; discriminate). cbn [N.eqb Pos.eqb]. rewrite (rhs_cs_named _ _ _ Hn). reflexivity.
Qed.

Lemma blank_white_prefix : forall b c s, blank b -> ~ white c -> forall x, trim_start (b ++ c :: s) = 123 :: x -> c = 123.
Proof.
  induction 1 as [|d b Hd Hb IH|t b Ht Hb IH]; intros Hc x Hx; cbn [app trim_start] in Hx.
  - unfold white in Hc. destruct (is_ws c); [contradiction|]. congruence.
  - rewrite Hd in Hx. eauto.
  - change (is_ws 37) with false in Hx. discriminate.
Qed.

Lemma read_argument : forall s a r, argument s a r -> exists g, lex_argument s = (Ok g, r) /\ arg_text (RArg g) = a.
Proof.
  intros s a r H. destruct H as [w g r Hw Hg|b c r Hb H1 H2 H3 H4|b s n r Hb Hn].
  - exists (AGroup g). split; [|reflexivity]. unfold lex_argument. rewrite trim_white; [|exact Hw|unfold not_next, white; discriminate].
    cbn [strip_char]. rewrite N.eqb_refl. unfold bind. rewrite (proj2 (group_content_balanced GKNormal 123 125 ltac:(left; auto) _ g r)); auto.
  - exists (AToken (TChr (c :: r))). split; [|reflexivity]. unfold lex_argument.
    destruct (strip_char 123 (trim_start (b ++ c :: r))) as [x|] eqn:E.
    { apply strip_char_some in E. exfalso. apply H4. eapply blank_white_prefix; eassumption. }
    unfold bind. rewrite token_char by assumption. reflexivity.
  - exists (AToken (TCs n)). split; [|reflexivity]. unfold lex_argument.
    destruct (strip_char 123 (trim_start (b ++ 92 :: s))) as [x|] eqn:E.
    { apply strip_char_some in E. exfalso. assert (E2 : 92 = 123) by (eapply blank_white_prefix; [exact Hb|unfold white; discriminate|exact E]). discriminate. }
    unfold bind. rewrite (token_cs _ _ _ _ Hb Hn). reflexivity.
Qed.

Lemma read_arguments : forall ps s l r, arguments ps s l r -> exists args,
  macro_args false ps s = (Ok args, r) /\ map arg_text args = l.
Proof.
  intros ps s l r H. induction H as [s|ps s a r1 l r Ha Hr IH|suf ps s a r1 l r Hs Hd Hr IH]; cbn [macro_args].
  - exists []. split; reflexivity.
  - destruct IH as (args & E & <-). apply read_argument in Ha as (g & Eg & <-). exists (RArg g :: args). split; [|reflexivity].
    rewrite andb_false_r. unfold bind. rewrite Eg. cbn. rewrite E. reflexivity.
  - destruct IH as (args & E & <-). apply (content_with_suffix_iff suf Hs) in Hd. exists (RRaw a :: args). split; [|reflexivity].
    rewrite andb_false_r. unfold bind. rewrite Hd. cbn. rewrite E. reflexivity.
Qed.

Lemma args_suffix : forall ps s l r, arguments ps s l r -> length l = length ps.
Proof. induction 1; cbn [length]; congruence. Qed.

(** A macro without a brace-delimited parameter, used on the text [pre ++ s]. *)
Lemma macro_expands : forall pre sufs rep l s args r out,
  parse_replacement rep (N.of_nat (length sufs)) = Ok l ->
  arguments (map delimiter sufs) s args r -> substitutes args rep out ->
  expand_definition (MDMacro (delimiter pre) (map delimiter sufs) false l) (pre ++ s) = Ok (out ++ r, blen (pre ++ s) - blen r).
Proof.
  intros pre sufs rep l s args r out Hl Ha Hs. unfold expand_definition, expand_call.
  destruct (read_arguments _ _ _ _ Ha) as (ra & Er & Em). pose proof (args_suffix _ _ _ _ Ha) as Hlen.
  assert (Hra : length ra = length sufs) by (rewrite <- (map_length arg_text ra), Em, Hlen; apply map_length).
  apply (replacement_sound (length rep)) in Hl as [_ Hl]; [|lia]. destruct (Hl ra ltac:(lia)) as (out' & Eo & Hs').
  rewrite Em in Hs'. pose proof (substitutes_fun _ _ _ _ Hs Hs'). subst out'.
  unfold bind, get, ret, put. destruct pre as [|x pre]; cbn [delimiter app].
  - rewrite Er, Eo. reflexivity.
  - change (x :: pre ++ s) with ((x :: pre) ++ s). rewrite strip_prefix_app. rewrite Er, Eo. reflexivity.
Qed.

(** ** Parameters ended by an opening brace *)

Lemma closed_no_brace : forall a, closed a -> ~ In 123 a.
Proof.
  intros a H. induction H as [|c a H1 H2 H3 H4 H IH|c a H1 H2 H IH]; [intros []|intros [E|E]; auto|].
  intros [E|[E|E]]; [discriminate|auto|auto].
Qed.

Lemma split_brace : forall a r, ~ In 123 a -> split_once_str [123] (a ++ 123 :: r) = Some (a, r).
Proof.
  induction a as [|c a IH]; intros r H; cbn [app split_once_str strip_prefix]; [rewrite N.eqb_refl; reflexivity|].
  destruct (N.eqb_spec 123 c) as [E|Hc]; [exfalso; apply H; left; symmetry; exact E|].
  rewrite IH; [reflexivity|]. intros Hi. apply H. right. exact Hi.
Qed.

Lemma read_before_brace : forall ps s l r, arguments ps s l r -> forall a r', closed a -> r = a ++ 123 :: r' ->
  exists args, macro_args true (ps ++ [None]) s = (Ok args, 123 :: r') /\ map arg_text args = l ++ [a].
Proof.
  intros ps s l r H. induction H as [s|ps s a0 r1 l r Ha Hr IH|suf ps s a0 r1 l r Hs Hd Hr IH]; intros a r' Hc Er.
  - exists [RRaw a]. split; [|reflexivity]. cbn [app macro_args is_nil andb]. unfold bind, get. subst s.
    rewrite (split_brace a r' (closed_no_brace a Hc)). unfold put, ret. f_equal. rewrite skipn_app, skipn_all, Nat.sub_diag. reflexivity.
  - destruct (IH a r' Hc Er) as (args & E & Em). apply read_argument in Ha as (g & Eg & <-).
    exists (RArg g :: args). split; [|cbn [map app]; rewrite Em; reflexivity]. cbn [app macro_args].
    replace (is_nil (ps ++ [None])) with false by (destruct ps; reflexivity). cbn [andb].
    unfold bind. rewrite Eg. cbn. rewrite E. reflexivity.
  - destruct (IH a r' Hc Er) as (args & E & Em). apply (content_with_suffix_iff suf Hs) in Hd.
    exists (RRaw a0 :: args). split; [|cbn [map app]; rewrite Em; reflexivity]. cbn [app macro_args].
    replace (is_nil (ps ++ [None])) with false by (destruct ps; reflexivity). cbn [andb].
    unfold bind. rewrite Hd. cbn. rewrite E. reflexivity.
Qed.

Lemma read_brace_arguments : forall sufs s l r, undelimited sufs -> brace_arguments (map delimiter sufs) s l r -> exists args,
  macro_args true (map delimiter sufs) s = (Ok args, r) /\ map arg_text args = l.
Proof.
  intros sufs s l r Hu H. remember (map delimiter sufs) as ps eqn:Eps. destruct H as [r|ps s l a r Ha Hc|ps suf s l a r Hs Ha Hc Hd].
  - exists []. split; reflexivity.
  - eapply read_before_brace; [exact Ha|exact Hc|reflexivity].
  - exfalso. destruct sufs as [|x sufs _] using rev_ind; [destruct ps; discriminate|].
    rewrite map_app in Eps. apply app_inj_tail in Eps as [_ E]. unfold undelimited in Hu. rewrite last_last in Hu. subst x. discriminate.
Qed.

Lemma brace_count : forall ps s l r, brace_arguments ps s l r -> length l = length ps.
Proof.
  intros ps s l r H. destruct H as [r|ps s l a r Ha Hc|ps suf s l a r Hs Ha Hc Hd]; [reflexivity| |];
    rewrite !app_length, (args_suffix _ _ _ _ Ha); reflexivity.
Qed.

Lemma brace_expands : forall pre sufs rep l s args r out,
  parse_replacement rep (N.of_nat (length sufs)) = Ok l -> undelimited sufs ->
  brace_arguments (map delimiter sufs) s args r -> substitutes args rep out ->
  expand_definition (MDMacro (delimiter pre) (map delimiter sufs) true l) (pre ++ s) = Ok (out ++ r, blen (pre ++ s) - blen r).
Proof.
  intros pre sufs rep l s args r out Hl Hu Ha Hs. unfold expand_definition, expand_call.
  destruct (read_brace_arguments _ _ _ _ Hu Ha) as (ra & Er & Em). pose proof (brace_count _ _ _ _ Ha) as Hlen.
  assert (Hra : length ra = length sufs) by (rewrite <- (map_length arg_text ra), Em, Hlen; apply map_length).
  apply (replacement_sound (length rep)) in Hl as [_ Hl]; [|lia]. destruct (Hl ra ltac:(lia)) as (out' & Eo & Hs').
  rewrite Em in Hs'. pose proof (substitutes_fun _ _ _ _ Hs Hs'). subst out'.
  unfold bind, get, ret, put. destruct pre as [|x pre]; cbn [delimiter app].
  - rewrite Er, Eo. reflexivity.
  - change (x :: pre ++ s) with ((x :: pre) ++ s). rewrite strip_prefix_app. rewrite Er, Eo. reflexivity.
Qed.

(** A command made by [\newcommand], without an optional parameter. *)
Lemma read_n_args : forall n s l r, arguments (repeat None n) s l r -> exists args,
  n_args n s = (Ok args, r) /\ map arg_text args = l /\ length args = n.
Proof.
  induction n as [|n IH]; intros s l r H; inversion H; subst; cbn [n_args].
  - exists []. auto.
  - match goal with H : arguments (repeat None n) _ _ _ |- _ => apply IH in H as (args & E & <- & Hl) end.
    match goal with H : argument _ _ _ |- _ => apply read_argument in H as (g & Eg & <-) end.
    exists (RArg g :: args). split; [|split; [reflexivity|cbn; congruence]]. unfold bind. rewrite Eg, E. reflexivity.
Qed.

Lemma command_expands : forall n rep l s args r out,
  parse_replacement rep n = Ok l -> arguments (repeat None (N.to_nat n)) s args r -> substitutes args rep out ->
  expand_definition (MDCommand n None l) s = Ok (out ++ r, blen s - blen r).
Proof.
  intros n rep l s args r out Hl Ha Hs. unfold expand_definition, expand_call, bind, ret.
  destruct (N.ltb_spec n 0); [lia|]. rewrite N.sub_0_r. apply read_n_args in Ha as (ra & -> & Em & Hlen).
  apply (replacement_sound (length rep)) in Hl as [_ Hl]; [|lia]. destruct (Hl ra ltac:(lia)) as (out' & Eo & Hs').
  rewrite Em in Hs'. pose proof (substitutes_fun _ _ _ _ Hs Hs'). subst out'. cbn [app]. rewrite Eo. reflexivity.
Qed.

(** With an optional first parameter: given in brackets, or the default. *)
Lemma command_default : forall n dflt rep l o s args r out, 1 <= n ->
  parse_replacement rep n = Ok l ->
  (exists w g, Forall white w /\ balanced 91 93 g /\ o = w ++ 91 :: g ++ 93 :: s /\ substitutes ((123 :: g ++ [125]) :: args) rep out) \/
  (o = s /\ (forall x, trim_start s <> 91 :: x) /\ substitutes ((123 :: dflt ++ [125]) :: args) rep out) ->
  arguments (repeat None (N.to_nat (n - 1))) s args r ->
  expand_definition (MDCommand n (Some dflt) l) o = Ok (out ++ r, blen o - blen r).
Proof.
  intros n dflt rep l o s args r out Hn Hl Ho Ha. unfold expand_definition, expand_call, bind, ret.
  apply read_n_args in Ha as (ra & Er & Em & Hlen). apply (replacement_sound (length rep)) in Hl as [_ Hl]; [|lia].
  destruct Ho as [(w & g & Hw & Hg & -> & Hs)|(-> & Hno & Hs)].
  - assert (E : optional_argument (w ++ 91 :: g ++ 93 :: s) = (Ok (Some g), s)).
    { unfold optional_argument. rewrite trim_white; [|exact Hw|unfold not_next, white; discriminate]. cbn [strip_char]. rewrite N.eqb_refl.
      rewrite (proj2 (group_content_balanced GKOptional 91 93 ltac:(right; auto) _ g s)); auto. }
    rewrite E. destruct (N.ltb_spec n 1); [lia|]. rewrite Er.
    destruct (Hl (RArg (AGroup g) :: ra) ltac:(cbn [length]; lia)) as (out' & Eo & Hs'). cbn [map arg_text] in Hs'. rewrite Em in Hs'.
    pose proof (substitutes_fun _ _ _ _ Hs Hs'). subst out'. cbn [app]. rewrite Eo. reflexivity.
  - assert (E : optional_argument s = (Ok None, s)).
    { unfold optional_argument. destruct (strip_char 91 (trim_start s)) as [x|] eqn:E; [|reflexivity].
      apply strip_char_some in E. exfalso. exact (Hno x E). }
    rewrite E. destruct (N.ltb_spec n 1); [lia|]. rewrite Er.
    destruct (Hl (RArg (AGroup dflt) :: ra) ltac:(cbn [length]; lia)) as (out' & Eo & Hs'). cbn [map arg_text] in Hs'. rewrite Em in Hs'.
    pose proof (substitutes_fun _ _ _ _ Hs Hs'). subst out'. cbn [app]. rewrite Eo. reflexivity.
Qed.

(** ** A valid definition never lacks an argument *)

Lemma macro_args_length : forall ps brace s args r, macro_args brace ps s = (Ok args, r) -> length args = length ps.
Proof.
  induction ps as [|p ps IH]; intros brace s args r H; cbn [macro_args] in H.
  - injection H as <- <-. reflexivity.
  - destruct (is_nil ps && brace) eqn:Eb.
    + apply andb_prop in Eb as [Eb _]. destruct ps; [|discriminate]. unfold bind, get in H.
      destruct (split_once_str _ s) as [[b ?]|]; [|discriminate]. injection H as <- <-. reflexivity.
    + unfold bind in H. destruct p as [suf|].
      * destruct (content_with_suffix suf s) as [[a|?|?|] r1]; try discriminate. cbn in H.
        destruct (macro_args brace ps r1) as [[l|?|?|] r2] eqn:E; try discriminate. injection H as <- <-. cbn [length].
        f_equal. eapply IH. exact E.
      * destruct (lex_argument s) as [[a|?|?|] r1]; try discriminate. cbn in H.
        destruct (macro_args brace ps r1) as [[l|?|?|] r2] eqn:E; try discriminate. injection H as <- <-. cbn [length].
        f_equal. eapply IH. exact E.
Qed.

Lemma n_args_length : forall n s args r, n_args n s = (Ok args, r) -> length args = n.
Proof.
  induction n as [|n IH]; intros s args r H; cbn [n_args] in H; [injection H as <- <-; reflexivity|].
  unfold bind in H. destruct (lex_argument s) as [[a|?|?|] r1]; try discriminate.
  destruct (n_args n r1) as [[l|?|?|] r2] eqn:E; try discriminate. injection H as <- <-. cbn [length]. f_equal. eapply IH. exact E.
Qed.

Lemma rep_ok_expands : forall n l args, rep_ok n l -> N.of_nat (length args) = n -> exists out, expand_rep args l = Some out.
Proof.
  intros n l args H Hn. induction l as [|t l IH]; [exists []; reflexivity|]. inversion H as [|? ? Ht Hl]; subst.
  destruct (IH Hl) as [o Eo]. cbn [expand_rep]. rewrite Eo. destruct t as [i|s]; [|eauto]. cbn in Ht.
  destruct (nth_error args (N.to_nat (i - 1))) as [a|] eqn:E; [eauto|]. apply nth_error_None in E. lia.
Qed.
