(** * Api: what a user of the parser sees.

    The specifications of the properties are stated with the definitions of
    this file: the items the iterator yields, how it ends, and syntactic
    conditions on the input. *)

From Coq Require Import List NArith ZArith Bool Lia Arith.
From Verif Require Import Base Float32 Event Tables Prim PrimTable Lex Macros Primitives Spans Parser
  SpecLex LexFacts LexMore PrimFacts Keep Measure Order Terminate KeepRun.
Import ListNotations.
Open Scope N_scope.

(** Iterating over [Parser::new(input)] yields exactly [l], then [None]. *)
Definition parses (input : str) (l : list item) : Prop :=
  exists n p, run n (new_parser input) = (l, ODone, p).

(** Iterating yields [l], then panics. *)
Definition panics (input : str) (l : list item) (x : panic) : Prop :=
  exists n p, run n (new_parser input) = (l, OPanic x, p).

(** After some number of rounds, exactly [l] has been yielded. *)
Definition yields (input : str) (l : list item) : Prop :=
  exists n, items_of (run n (new_parser input)) = l.

(** The parser [p] is reached from the start on [input], having yielded [l]. *)
Definition reaches (input : str) (l : list item) (p : parser) : Prop :=
  exists n o, run n (new_parser input) = (l, o, p).

Definition is_error (i : item) : bool := match i with ItError _ => true | ItEvent _ => false end.

(** The events of a stream of items. *)
Fixpoint events (l : list item) : list event :=
  match l with
  | [] => []
  | ItEvent e :: l' => e :: events l'
  | ItError _ :: l' => events l'
  end.

Definition error_free (l : list item) : Prop := forallb (fun i => negb (is_error i)) l = true.

(** The text contains none of the commands that define a macro. *)
Definition definition_commands : list str :=
  [lit "\def"; lit "\let"; lit "\futurelet"; lit "\newcommand"; lit "\renewcommand"; lit "\providecommand"].

Definition defines_nothing (input : str) : Prop :=
  forall c, In c definition_commands -> ~ contains c input.

(** ** Facts *)

Lemma parses_det : forall input l l', parses input l -> parses input l' -> l = l'.
Proof.
  intros input l l' (n & p & H) (m & q & H').
  destruct (Nat.le_gt_cases n m) as [Hle|Hle].
  - rewrite (run_more n) in H'; [congruence|rewrite H; discriminate|exact Hle].
  - rewrite (run_more m) in H; [congruence|rewrite H'; discriminate|lia].
Qed.

Lemma definition_commands_all : forall cs, is_def_prim (lookup_prim cs) = true -> In (92 :: cs) definition_commands.
Proof.
  assert (Ht : forallb (fun x => negb (is_def_prim (snd x)) || existsb (str_eqb (92 :: fst x)) definition_commands)
    prim_table = true) by (vm_compute; reflexivity).
  intros cs H. unfold lookup_prim in H. destruct (assoc_str cs prim_table) as [p|] eqn:E.
  - apply assoc_str_in in E. pose proof (proj1 (forallb_forall _ _) Ht _ E) as H1. cbn [fst snd] in H1.
    rewrite H in H1. unfold negb, orb in H1. apply existsb_exists in H1 as (x & H1 & H2). apply str_eqb_eq in H2. subst. exact H1.
  - destruct (control_sequence_delimiter_map cs) as [[? ?]|]; [discriminate|].
    destruct (is_nil (trim_start cs)); discriminate.
Qed.

(** Slices of a text without definitions. *)
Definition undefining (s : slice) : Prop := defines_nothing (stxt s).

Lemma undefining_sub : forall a b, sl_sub a b -> undefining b -> undefining a.
Proof.
  intros a b Hs Hb c Hc Hin. apply (Hb c Hc). eapply contains_sub; eassumption.
Qed.

Lemma undefining_closed : def_closed undefining (fun m => m = []).
Proof.
  intros cs name d m (_ & sl & Hsl & Hc) Hd _ _ _. exfalso.
  eapply Hsl; [|exact Hc]. apply definition_commands_all. exact Hd.
Qed.

Lemma undefining_run : forall input n, defines_nothing input ->
  let '(l, o, p) := run n (new_parser input) in
  PInv undefining (fun m => m = []) p /\ Forall item_ok l.
Proof.
  intros input n H. apply keep_run.
  - exact undefining_sub.
  - exact undefining_closed.
  - intros m cs d r txt k n' sl -> Hg. discriminate.
  - split; [repeat constructor; exact H|]. split; [constructor|reflexivity].
Qed.

(** Without definitions nothing is expanded. *)
Lemma undefining_parse_total : forall f q, i_macros (q_ist q) = [] -> total (snd (parse f q)) = total q.
Proof.
  intros [|f] q Hm; [reflexivity|]. cbn [parse].
  destruct (lex_token _) as [[[cs|ctx]|e|x|] r].
  - rewrite Hm. cbn [ctx_get assoc_str]. rewrite run_inner_total. reflexivity.
  - rewrite run_inner_total. reflexivity.
  - destruct e; reflexivity.
  - reflexivity.
  - reflexivity.
Qed.

Lemma undefining_step_total : forall p, PInv undefining (fun m => m = []) p ->
  ptotal (snd (next_step p)) = ptotal p.
Proof.
  intros p (Hs & Hb & Hm). unfold next_step. destruct (p_stack p) as [|[e|c al] s] eqn:Es; try reflexivity.
  destruct (is_nil _); [reflexivity|].
  pose proof (undefining_parse_total parse_fuel (of_parser p c al) Hm) as Ht.
  change (total (of_parser p c al)) with (ptotal p) in Ht.
  destruct (parse parse_fuel (of_parser p c al)) as [r q]. cbn [snd] in Ht.
  destruct r as [[[[e sub] sup]|]|e|x|].
  - destruct (order_scripts _ _ _); exact Ht.
  - exact Ht.
  - destruct (new_error e _ _) as [re sp] eqn:Ee. pose proof (new_error_never _ _ _ _ _ Ee) as Hn.
    destruct re as [pe|?|?|]; try contradiction; [|exact Ht]. destruct Hn as [Hn _].
    change (s_total sp = ptotal p). rewrite Hn. exact Ht.
  - exact Ht.
  - exact Ht.
Qed.

Lemma undefining_total : forall n p, PInv undefining (fun m => m = []) p ->
  ptotal (parser_of (run n p)) = ptotal p.
Proof.
  induction n as [|n IH]; intros p Hp; [reflexivity|]. cbn [run].
  pose proof (undefining_step_total p Hp) as Ht.
  assert (Hk := keep_step undefining undefining_sub _ undefining_closed
    (fun m cs d r txt k n' sl (E : m = []) Hg => ltac:(subst m; discriminate)) p Hp).
  destruct (next_step p) as [[i| | |x| ] p']; cbn [snd] in Ht; try exact Ht.
  - specialize (IH p' (proj1 Hk)). destruct (run n p') as [[l o] p'']. cbn in *. congruence.
  - rewrite IH; assumption.
Qed.

(** ** How a run ends *)

Lemma run_ends : forall n p, match outcome_of (run n p) with ODone | OPanic _ | OFuel => True | _ => False end.
Proof.
  induction n as [|n IH]; intros p; [exact I|]. cbn [run].
  destruct (next_step p) as [[i| | |x| ] p']; try exact I.
  - specialize (IH p'). destruct (run n p') as [[l o] p'']. exact IH.
  - apply IH.
Qed.

Lemma run_terminates : forall input, (exists l, parses input l) \/ (exists l x, panics input l x).
Proof.
  intros input. destruct (run_halts (new_parser input)) as [n Hn].
  pose proof (run_ends n (new_parser input)) as H.
  destruct (run n (new_parser input)) as [[l o] p] eqn:E. unfold outcome_of in *. cbn [fst snd] in *.
  destruct o; try contradiction; try congruence; [left|right]; repeat eexists; eassumption.
Qed.

Lemma done_stack : forall n p l p', run n p = (l, ODone, p') -> p_stack p' = [].
Proof.
  induction n as [|n IH]; intros p l p' H; [discriminate|]. cbn [run] in H.
  pose proof (step_smaller p) as Hs.
  destruct (next_step p) as [[i| | |x| ] q]; try discriminate.
  - destruct (run n q) as [[l1 o1] q1] eqn:E. injection H as _ -> ->. eapply IH. exact E.
  - eapply IH. exact H.
  - injection H as _ <-. destruct Hs as [-> Hs]. exact Hs.
Qed.

Lemma run_fused : forall n p l p', run n p = (l, ODone, p') -> forall m, next (S m) p' = (ODone, p').
Proof.
  intros n p l p' H m. apply done_stack in H. cbn [next]. unfold next_step. rewrite H. reflexivity.
Qed.

Lemma any_run : forall input n,
  let '(l, o, p) := run n (new_parser input) in
  PInv (fun _ => True) (fun _ => True) p /\ Forall item_ok l.
Proof.
  intros input n. apply keep_run; try (intros; exact I).
  - intros ? ? ? ? ? ? ? ? ?. exact I.
  - split; [repeat constructor|]. split; [constructor|exact I].
Qed.

Lemma event_ok : forall input l e, yields input l -> In e (events l) -> ev_ok e.
Proof.
  intros input l e [n Hn] He. pose proof (any_run input n) as H.
  destruct (run n (new_parser input)) as [[l' o] p]. unfold items_of in Hn. cbn in Hn. subst l'.
  destruct H as [_ H]. induction l as [|[e'|pe] l IH]; cbn in He; try contradiction.
  - inversion H; subst. destruct He as [->|He]; [assumption|auto].
  - inversion H; subst. auto.
Qed.

Lemma array_column : forall input l cols, yields input l ->
  In (EvBegin (GArray cols)) (events l) -> exists a, In (ACColumn a) cols.
Proof.
  intros input l cols Hy Hin. pose proof (event_ok _ _ _ Hy Hin) as H. cbn in H.
  apply existsb_exists in H as ([a| ] & H1 & H2); try discriminate. exists a. exact H1.
Qed.

Lemma number_event : forall input l s, yields input l -> In (EvContent (CNumber s)) (events l) ->
  exists c r, s = c :: r /\ 48 <= c <= 57 /\ Forall (fun x => x = 46 \/ x = 44 \/ 48 <= x <= 57) r.
Proof.
  intros input l s Hy Hin. pose proof (event_ok _ _ _ Hy Hin) as (c & r & -> & Hd & Hr).
  assert (Hdig : forall x, is_digit x = true -> 48 <= x <= 57).
  { intros x Hx. unfold is_digit in Hx. apply andb_prop in Hx as [H1 H2]. apply N.leb_le in H1, H2. lia. }
  exists c, r. split; [reflexivity|]. split; [auto|]. rewrite forallb_forall in Hr. apply Forall_forall.
  intros x Hx. apply Hr in Hx. unfold is_numeral in Hx. rewrite !orb_true_iff, !N.eqb_eq in Hx.
  destruct Hx as [[Hx|Hx]|Hx]; auto.
Qed.

Lemma linear_items : forall input l, defines_nothing input -> yields input l ->
  (length l <= 3 * length input + 1)%nat.
Proof.
  intros input l Hd [n Hn]. subst l.
  assert (Hi : PInv undefining (fun m => m = []) (new_parser input)).
  { split; [repeat constructor; exact Hd|]. split; [constructor|reflexivity]. }
  pose proof (run_count n (new_parser input) (undefining_total n _ Hi)) as Hc.
  replace (pot (new_parser input)) with (3 * length input + 1)%nat in Hc; [exact Hc|].
  unfold pot. cbn [p_stack p_buf new_parser weight iweight]. unfold slen. cbn [stxt]. lia.
Qed.
