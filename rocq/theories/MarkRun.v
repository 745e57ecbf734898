(** * MarkRun: the alignment marks of a row, on every input. *)

From Coq Require Import List NArith ZArith Bool Lia Arith.
From Verif Require Import Base Float32 Event Tables Prim PrimTable Lex Macros Primitives Spans Parser
  SpecLex LexFacts LexMore PrimFacts Keep Measure Order Terminate KeepRun Api SpecEvent SpecGrammar SpecMarks Shape ShapeRun.
Import ListNotations.
Open Scope N_scope.
Open Scope sm_scope.

(** ** The flow events in a list of instructions *)

Fixpoint flows (l : list instr) : list event :=
  match l with
  | [] => []
  | IEv (EvFlow EFAlignment as e) :: l' | IEv (EvFlow (EFNewLine _ _) as e) :: l' => e :: flows l'
  | _ :: l' => flows l'
  end.

Lemma flows_app : forall a b, flows (a ++ b) = (flows a ++ flows b)%list.
Proof.
  induction a as [|i a IH]; intro b; [reflexivity|]. cbn [app flows]. rewrite IH.
  destruct i as [[| | | | | | |[]]|]; reflexivity.
Qed.

(** Nothing happens to the row. *)
Definition still (st st' : ist) : Prop :=
  i_align st' = i_align st /\ exists l, i_buf st' = (i_buf st ++ l)%list /\ flows l = [].

Lemma still_refl : forall st st', i_align st' = i_align st -> i_buf st' = i_buf st -> still st st'.
Proof. intros st st' H1 H2. split; [exact H1|]. exists []. rewrite app_nil_r. auto. Qed.

Lemma still_trans : forall a b c, still a b -> still b c -> still a c.
Proof.
  intros a b c [H1 (l & H2 & H3)] [H4 (m & H5 & H6)]. split; [congruence|]. exists (l ++ m)%list.
  rewrite H5, H2, app_assoc, flows_app, H3, H6. auto.
Qed.

(** One flow event at most, and none in an argument. *)
Definition turned (st st' : ist) : Prop :=
  still st st' \/
  i_handling st = false /\ exists l e, i_buf st' = (i_buf st ++ l)%list /\ flows l = [e] /\ flow_step (i_align st) e (i_align st').

Definition neutral {A} (m : P A) : Prop := forall st, wp m st (fun _ st' => still st st').

Lemma n_bind : forall A B (m : P A) (f : A -> P B), neutral m -> (forall a, neutral (f a)) -> neutral (bind m f).
Proof.
  intros A B m f Hm Hf st. apply wp_bind. eapply wp_conseq; [apply Hm|]. intros a st' H.
  eapply wp_conseq; [apply Hf|]. intros b st'' H2. cbn beta in *. eapply still_trans; eassumption.
Qed.

Lemma n_same : forall A (m : P A), (forall st, match m st with (Ok _, st') => i_align st' = i_align st /\ i_buf st' = i_buf st | _ => True end) -> neutral m.
Proof. intros A m H st. unfold wp. specialize (H st). destruct (m st) as [[a|e|p|] st']; auto. apply still_refl; apply H. Qed.

Lemma n_ret : forall A (a : A), neutral (ret a).
Proof. intros. apply n_same. intro st. cbn. auto. Qed.
Lemma n_fail : forall A e, neutral (@fail _ A e).
Proof. intros A e st. exact I. Qed.
Lemma n_panic : forall A e, neutral (@panic_with _ A e).
Proof. intros A e st. exact I. Qed.
Lemma n_get : neutral get.
Proof. apply n_same. intro st. cbn. auto. Qed.
Lemma n_modify : forall f, (forall st, i_align (f st) = i_align st /\ i_buf (f st) = i_buf st) -> neutral (modify f).
Proof. intros f H. apply n_same. intro st. cbn. apply H. Qed.
Lemma n_push : forall l, flows l = [] -> neutral (push l).
Proof. intros l H st. split; [reflexivity|]. exists l. auto. Qed.
Lemma n_push_ev : forall e, flows [IEv e] = [] -> neutral (push_ev e).
Proof. intros e H st. split; [reflexivity|]. exists [IEv e]. auto. Qed.
Lemma n_lift : forall A (r : res A), neutral (lift r).
Proof. intros. apply n_same. intro st. unfold lift. destruct r; auto. Qed.
Lemma n_ok_or : forall A (o : option A) e, neutral (ok_or o e).
Proof. intros A [a|] e; [apply n_ret|apply n_fail]. Qed.
Lemma n_local : forall A (l : lexer A) t, neutral (on_local l t).
Proof. intros. apply n_same. intro st. unfold on_local. destruct (l t) as [[| | |] ?]; auto. Qed.
Lemma n_lexc : forall A (l : lexer A), neutral (lexc l).
Proof. intros. apply n_same. intro st. unfold lexc. destruct (l _) as [[| | |] ?]; auto. Qed.
Lemma n_argc : neutral argc.
Proof. apply n_same. intro st. unfold argc. destruct (arg_slice _) as [[| | |] ?]; auto. Qed.
Lemma n_groupc : forall k, neutral (groupc k).
Proof. intro k. apply n_same. intro st. unfold groupc. destruct (group_content _ _) as [[| | |] ?]; auto. Qed.
Lemma n_bracec : neutral bracec.
Proof. apply n_same. intro st. unfold bracec. destruct (brace_argument _) as [[| | |] ?]; auto. Qed.
Lemma n_optc : neutral optc.
Proof. apply n_same. intro st. unfold optc. destruct (optional_argument _) as [[[|]| | |] ?]; auto. Qed.
Lemma n_buf_len : neutral buf_len.
Proof. apply n_same. intro st. cbn. auto. Qed.
Lemma n_peek : neutral peek.
Proof. apply n_same. intro st. cbn. auto. Qed.

Lemma still_turned : forall A (m : P A) st, neutral m -> wp m st (fun _ => turned st).
Proof. intros A m st H. eapply wp_conseq; [apply H|]. intros a st' H1. left. exact H1. Qed.

Ltac nstep := first
  [ apply n_bind; [|intro] | apply n_ret | apply n_fail | apply n_panic | apply n_get | apply n_lift | apply n_ok_or | apply n_local
  | apply n_lexc | apply n_argc | apply n_groupc | apply n_bracec | apply n_optc | apply n_buf_len | apply n_peek
  | apply n_push; reflexivity | apply n_push_ev; reflexivity | apply n_modify; intro; split; reflexivity
  | assumption ].
Ltac ngo := repeat first [nstep | match goal with
  | |- neutral (match ?x with _ => _ end) => destruct x
  | |- neutral (let _ := _ in _) => cbv zeta
  | |- neutral (group_arg _) => unfold group_arg
  | |- neutral (color_of _) => unfold color_of
  | |- neutral left_delim => unfold left_delim
  | |- neutral genfrac_delim => unfold genfrac_delim
  | |- neutral optional_alignment => unfold optional_alignment
  | |- neutral array_environment => unfold array_environment
  | |- neutral alignat_pairs => unfold alignat_pairs
  | |- neutral (pair_count _) => unfold pair_count
  end].

Lemma n_char : forall ctx st, wp (handle_char ctx) st (fun _ => turned st).
Proof.
  intros ctx st. unfold handle_char. apply wp_bind, wp_get. cbv zeta.
  destruct (_ =? 92); [apply wp_panic|]. destruct (_ =? 37); [apply wp_panic|].
  destruct (_ || _). { destruct (i_handling st); [apply wp_fail|]. apply still_turned. ngo. }
  destruct (_ =? 36); [apply wp_fail|]. destruct (_ =? 35); [apply wp_fail|].
  destruct (_ =? 38).
  { destruct (i_align st) as [[n m]|] eqn:Ea; [|apply wp_fail]. destruct (_ && _) eqn:E; [|apply wp_fail].
    apply andb_prop in E as [E1 E2]. apply N.ltb_lt in E1. apply negb_true_iff in E2.
    apply wp_bind, wp_modify, wp_push_ev. right. split; [exact E2|]. exists [IEv (EvFlow EFAlignment)], (EvFlow EFAlignment).
    split; [reflexivity|]. split; [reflexivity|]. cbn. rewrite Ea. constructor. exact E1. }
  destruct (_ =? 123). { apply still_turned. ngo. }
  destruct (_ =? 125); [apply wp_fail|]. destruct (is_digit _).
  { apply still_turned. ngo. }
  apply still_turned. apply n_push_ev. unfold char_event.
  repeat match goal with |- context [if ?b then _ else _] => destruct b end; try reflexivity.
  destruct (char_delimiter_map _) as [[d []]|]; reflexivity.
Qed.

Section Prims.
  Variable rec : str -> P unit.
  Hypothesis Hrec : forall cs st, wp (rec cs) st (fun _ => turned st).

  Lemma n_handle_arg : forall a, neutral (handle_arg rec a).
  Proof.
    intros a st. destruct a as [g|cs|ctx]; cbn [handle_arg].
    - apply n_push. reflexivity.
    - apply wp_bind, wp_modify. eapply wp_conseq; [apply Hrec|]. intros [] st' [H|[H _]]; [|discriminate]. exact H.
    - apply wp_bind, wp_modify. eapply wp_conseq; [apply n_char|]. intros [] st' [H|[H _]]; [|discriminate]. exact H.
  Qed.

  Ltac na := repeat first [apply n_handle_arg | nstep | match goal with
    | |- neutral (match ?x with _ => _ end) => destruct x
    | |- neutral (let _ := _ in _) => cbv zeta
    end | progress ngo].

  Lemma n_atom_group : forall k, neutral (atom_group rec k).
  Proof. intro k. unfold atom_group. na. apply n_push_ev. destruct k; reflexivity. Qed.
  Lemma n_text : forall f, neutral (text_argument f).
  Proof. intro f. unfold text_argument. na. Qed.
  Lemma n_accent : forall c s, neutral (accent rec c s).
  Proof. intros. unfold accent. na. Qed.
  Lemma n_under : forall c, neutral (underscript rec c).
  Proof. intros. unfold underscript. na. Qed.
  Lemma n_fraction : forall o c b s, neutral (fraction_like rec o c b s).
  Proof. intros. unfold fraction_like. na. Qed.
  Lemma n_environment : forall name, neutral (environment name).
  Proof. intro name. unfold environment. na. Qed.
  Lemma n_begin : neutral begin_env.
  Proof. unfold begin_env. apply n_bind; [na|intro]. apply n_bind; [apply n_environment|intro]. na. Qed.
  Lemma n_new_command : forall s, neutral (new_command s).
  Proof. intro s. unfold new_command. na. Qed.

  (** The events of [\overset] change places. *)
  Lemma n_swap : forall e (m : P sarg), flows [IEv e] = [] -> neutral m ->
    neutral (push_ev e ;; do n <- buf_len ; do over <- m ; handle_arg rec over ;; do evs <- split_off n ; do base <- argc ; handle_arg rec base ;; push evs).
  Proof.
    intros e m He Hm st. apply wp_bind, wp_push_ev, wp_bind, wp_buf_len, wp_bind. eapply wp_conseq; [apply Hm|].
    intros over st1 [A1 (l1 & B1 & C1)]. apply wp_bind. eapply wp_conseq; [apply n_handle_arg|]. intros [] st2 [A2 (l2 & B2 & C2)].
    apply wp_bind, wp_split_off. rewrite B1, <- app_assoc in B2. rewrite B2.
    rewrite firstn_app_l, skipn_app_l. apply wp_bind. eapply wp_conseq; [apply n_argc|]. intros base st3 [A3 (l3 & B3 & C3)].
    apply wp_bind. eapply wp_conseq; [apply n_handle_arg|]. intros [] st4 [A4 (l4 & B4 & C4)]. apply wp_push. split; [cbn in *; congruence|].
    exists (IEv e :: l3 ++ l4 ++ l1 ++ l2)%list. cbn [set_buf i_buf] in *. rewrite B4, B3, <- !app_assoc. cbn [app]. split; [reflexivity|].
    change (IEv e :: l3 ++ l4 ++ l1 ++ l2)%list with ([IEv e] ++ l3 ++ l4 ++ l1 ++ l2)%list. rewrite !flows_app, He, C1, C2, C3, C4. reflexivity.
  Qed.

  Lemma t_newline : forall st, wp newline st (fun _ => turned st).
  Proof.
    intro st. unfold newline. apply wp_bind, wp_get. destruct (i_align st) as [[n m]|] eqn:Ea; [|apply wp_fail].
    destruct (i_handling st) eqn:Eh; [apply wp_fail|]. apply wp_bind, wp_modify, wp_bind. eapply wp_conseq; [apply n_optc|].
    intros o st1 [A1 (l1 & B1 & C1)]. apply wp_bind.
    assert (N1 : neutral (match o with Some a => do d <- on_local lex_dimension (stxt a) ; ret (Some (fst d)) | None => ret None end)) by ngo.
    eapply wp_conseq; [apply N1|]. intros sp st2 [A2 (l2 & B2 & C2)]. apply wp_bind. eapply wp_conseq; [apply n_lexc|].
    intros hl st3 [A3 (l3 & B3 & C3)]. apply wp_push_ev. right. split; [exact Eh|]. exists (l1 ++ l2 ++ l3 ++ [IEv (EvFlow (EFNewLine sp hl))])%list, (EvFlow (EFNewLine sp hl)).
    cbn [set_buf i_buf i_align set_align] in *. rewrite B3, B2, B1, <- !app_assoc. split; [reflexivity|].
    rewrite !flows_app, C1, C2, C3. split; [reflexivity|]. rewrite A3, A2, A1, Ea. constructor.
  Qed.

  Lemma t_font_group : forall f st, wp (font_group rec f) st (fun _ => turned st).
  Proof.
    intros f st. unfold font_group. apply wp_bind. unfold argc, wp at 1. destruct (arg_slice _) as [[a| | |] sl]; try exact I.
    apply wp_bind, wp_push, wp_bind. set (st0 := set_buf _ _).
    assert (Hm : wp (match a with SCs cs => rec cs | SChr ctx => handle_char ctx | SGroup g => push [ISub g None] end) st0 (fun _ => turned st0)).
    { destruct a; [apply still_turned, n_push; reflexivity|apply Hrec|apply n_char]. }
    eapply wp_conseq; [exact Hm|]. intros [] st1 [[A (l & B & C)]|(H & l & e & B & C & D)]; apply wp_push_ev.
    - left. split; [exact A|]. exists ([IEv (EvBegin GNormal); IEv (EvState (SCFont f))] ++ l ++ [IEv EvEnd])%list.
      cbn [set_buf i_buf st0] in *. rewrite B. unfold st0. cbn [set_buf i_buf set_content]. rewrite <- !app_assoc. split; [reflexivity|]. rewrite !flows_app, C. reflexivity.
    - right. split; [exact H|]. exists ([IEv (EvBegin GNormal); IEv (EvState (SCFont f))] ++ l ++ [IEv EvEnd])%list, e.
      cbn [set_buf i_buf st0] in *. rewrite B. unfold st0. cbn [set_buf i_buf set_content]. rewrite <- !app_assoc. split; [reflexivity|]. rewrite !flows_app, C. split; [reflexivity|exact D].
  Qed.

  Lemma t_prim : forall cs st, wp (hprim_body rec cs) st (fun _ => turned st).
  Proof.
    intros cs st. unfold hprim_body. destruct (lookup_prim cs) eqn:EL;
      try (apply t_newline); try (apply t_font_group); apply still_turned;
      try (first [apply n_atom_group | apply n_text | apply n_accent | apply n_under | apply n_fraction | apply n_begin | apply n_new_command]).
    { apply n_push_ev. pose proof (lookup_leaf _ _ EL) as Hl. destruct e; try discriminate; reflexivity. }
    all: try (apply (n_swap (EvScript ty SPAboveBelow) argc); [reflexivity|apply n_argc]).
    all: try solve [apply n_bind; [apply n_get|intro]; apply n_bind; [apply n_lexc|intro]; apply n_bind; [apply n_get|intro];
      apply n_swap; [reflexivity|apply n_lift]].
    all: try unfold sized_delim; try unfold large_op.
    all: try solve [repeat first [apply n_atom_group | apply n_text | apply n_accent | apply n_under | apply n_fraction | na]].
    all: match goal with |- ?g => idtac g end.
  Qed.
End Prims.

Lemma t_hprim : forall n cs st, wp (hprim n cs) st (fun _ => turned st).
Proof. induction n as [|n IH]; intros cs st; [exact I|]. cbn [hprim]. apply t_prim. exact IH. Qed.

Lemma n_prim_arg : forall a, neutral (handle_arg handle_prim a).
Proof. apply n_handle_arg. intros cs st. unfold wp, handle_prim. apply t_hprim. Qed.

Lemma n_scripts : neutral parse_scripts.
Proof.
  unfold parse_scripts. unfold drop1.
  repeat first [apply n_prim_arg | nstep | match goal with
    | |- neutral (match ?x with _ => _ end) => destruct x
    | |- neutral (let _ := _ in _) => cbv zeta end].
Qed.

(** What a call of [parse] leaves in the buffer. *)
Definition call_flow (al al' : option (N * N)) (l : list instr) : Prop :=
  flows l = [] /\ al' = al \/ exists e, flows l = [e] /\ flow_step al e al'.

Lemma n_atom : forall (m : P unit) st, (forall st, wp m st (fun _ => turned st)) -> i_buf st = [] ->
  wp (parse_atom m) st (fun _ st' => call_flow (i_align st) (i_align st') (i_buf st')).
Proof.
  intros m st Hm Hb. unfold parse_atom. apply wp_bind. eapply wp_conseq; [apply Hm|]. intros [] st1 H1.
  eapply wp_conseq; [apply n_scripts|]. intros o st2 [A2 (l2 & B2 & C2)]. unfold call_flow.
  destruct H1 as [[A1 (l1 & B1 & C1)]|(_ & l1 & e & B1 & C1 & D1)]; rewrite Hb in B1; cbn [app] in B1; rewrite B2, B1, flows_app, C1, C2.
  - left. split; [reflexivity|congruence].
  - right. exists e. split; [reflexivity|]. rewrite A2. exact D1.
Qed.

Lemma parse_flow : forall f q r q', i_buf (q_ist q) = [] -> parse f q = (Ok r, q') ->
  call_flow (i_align (q_ist q)) (i_align (q_ist q')) (i_buf (q_ist q')).
Proof.
  assert (Hr : forall (m : P unit) q r q', (forall st, wp m st (fun _ => turned st)) -> i_buf (q_ist q) = [] ->
    run_inner (parse_atom m) q = (Ok r, q') -> call_flow (i_align (q_ist q)) (i_align (q_ist q')) (i_buf (q_ist q'))).
  { intros m q r q' Hm Hb H. unfold run_inner in H. pose proof (n_atom m (q_ist q) Hm Hb) as Hw. unfold wp in Hw.
    destruct (parse_atom m (q_ist q)) as [r1 st2]. injection H as -> <-. exact Hw. }
  induction f as [|f IH]; intros q r q' Hb H; [discriminate|]. cbn [parse] in H.
  destruct (lex_token _) as [[[cs|ctx]|er|p|] t]; try discriminate.
  - destruct (ctx_get _ cs) as [d|].
    2: { apply (Hr _ _ _ _ (fun st => t_hprim (Datatypes.S (length (stxt (i_content st)))) cs st)) in H; [exact H|exact Hb]. }
    destruct (expand_definition d t) as [[txt k]|?|?|]; try discriminate.
    destruct (_ || _); [discriminate|]. destruct (add_span _ _ _ _) as [[[]|?|?|] sp]; try discriminate.
    apply IH in H; [exact H|exact Hb].
  - apply (Hr _ _ _ _ (n_char _)) in H; [exact H|exact Hb].
  - destruct er; try discriminate. injection H as <- <-. left. cbn. rewrite Hb. auto.
Qed.

(** ** The rows on the stack *)

Definition allowed (S : list (grouping * N)) (e : event) : Prop :=
  match e with
  | EvFlow EFAlignment => exists g k m, innermost S = Some (g, k) /\ marks g = Some m /\ k < m
  | EvFlow (EFNewLine _ _) => innermost S <> None
  | _ => True
  end.

Fixpoint fits (S : list (grouping * N)) (l : list instr) : Prop :=
  match l with
  | [] => True
  | IEv e :: l' => allowed S e /\ fits (row_step S e) l'
  | ISub _ None :: l' => fits S l'
  | ISub _ (Some (k, m)) :: l' =>
      match S with
      | (g, k0) :: S' => k0 = k /\ marks g = Some m /\ forall k', fits ((g, k') :: S') l'
      | [] => False
      end
  end.

Definition unit_ok (l : list instr) : Prop :=
  (flows l = [] -> forall S t, fits S t -> fits S (l ++ t)) /\
  (forall e, flows l = [e] -> forall N g k k' m S t, Forall (fun x => marks (fst x) = None) N -> marks g = Some m ->
     flow_step (Some (k, m)) e (Some (k', m)) -> fits (N ++ (g, k') :: S) t -> fits (N ++ (g, k) :: S) (l ++ t)).

Lemma unit_nil : unit_ok [].
Proof. split; [auto|discriminate]. Qed.

Lemma unit_app : forall a b, unit_ok a -> unit_ok b -> unit_ok (a ++ b).
Proof.
  intros a b [A1 A2] [B1 B2]. split.
  - intros H S t Ht. rewrite flows_app in H. apply app_eq_nil in H as [Ha Hb]. rewrite <- app_assoc. apply A1; [exact Ha|]. apply B1; assumption.
  - intros e H N g k k' m S t HN Hg Hf Ht. rewrite flows_app in H. rewrite <- app_assoc.
    destruct (flows a) as [|x fa] eqn:Ea.
    + apply A1; [reflexivity|]. eapply B2; eassumption.
    + injection H as -> H. apply app_eq_nil in H as [-> Hb]. eapply A2; try eassumption; [reflexivity|]. apply B1; assumption.
Qed.

Definition plain_instr (i : instr) : bool :=
  match i with
  | IEv (EvBegin _) | IEv EvEnd | IEv (EvFlow EFAlignment) | IEv (EvFlow (EFNewLine _ _)) | ISub _ (Some _) => false
  | _ => true
  end.

Lemma unit_one : forall i, plain_instr i = true -> unit_ok [i].
Proof.
  intros i Hi. assert (E : forall S t, fits S t -> fits S (i :: t)).
  { intros S t H. destruct i as [[| | | | | | |[]]|c [[]|]]; try discriminate; cbn; auto. }
  split; [intros _; exact E|].
  intros e H. destruct i as [[| | | | | | |[]]|c [[]|]]; discriminate.
Qed.

Lemma unit_plain : forall l, forallb plain_instr l = true -> unit_ok l.
Proof.
  induction l as [|i l IH]; intro H; [apply unit_nil|]. cbn in H. apply andb_prop in H as [H1 H2].
  apply (unit_app [i] l); [apply unit_one; exact H1|apply IH; exact H2].
Qed.

Lemma unit_cons : forall i l, plain_instr i = true -> unit_ok l -> unit_ok (i :: l).
Proof. intros i l Hi Hl. apply (unit_app [i] l); [apply unit_one; exact Hi|exact Hl]. Qed.

Lemma flows_group : forall g q, flows (IEv (EvBegin g) :: q ++ [IEv EvEnd]) = flows q.
Proof. intros. cbn [flows]. rewrite flows_app. apply app_nil_r. Qed.

Lemma unit_group : forall g q, marks g = None -> unit_ok q -> unit_ok (IEv (EvBegin g) :: q ++ [IEv EvEnd]).
Proof.
  intros g q Hg [Q1 Q2]. split; rewrite flows_group.
  - intros H S t Ht. cbn [app fits row_step allowed]. split; [exact I|]. rewrite <- app_assoc. apply Q1; [exact H|]. cbn. auto.
  - intros e H N gg k k' m S t HN Hm Hf Ht. cbn [app fits row_step allowed]. split; [exact I|]. rewrite <- app_assoc.
    apply (Q2 e H ((g, 0) :: N) gg k k' m S); try assumption; [constructor; assumption|]. cbn. auto.
Qed.

Lemma unit_env : forall g m st hl c, marks g = Some m ->
  unit_ok (IEv (EvBegin g) :: style_list st ++ lines_list hl ++ [ISub c (Some (0, m)); IEv EvEnd]).
Proof.
  intros g m st hl c Hg. assert (E : flows (IEv (EvBegin g) :: style_list st ++ lines_list hl ++ [ISub c (Some (0, m)); IEv EvEnd]) = []).
  { destruct st; unfold lines_list; destruct (is_nil hl); reflexivity. }
  split; rewrite E; [|discriminate]. intros _ S t Ht. cbn [app fits row_step allowed]. split; [exact I|]. rewrite <- !app_assoc.
  assert (P : unit_ok (style_list st ++ lines_list hl)) by (apply unit_plain; destruct st; unfold lines_list; destruct (is_nil hl); reflexivity).
  rewrite app_assoc. apply P. { destruct st; unfold lines_list; destruct (is_nil hl); reflexivity. }
  cbn. auto.
Qed.

Lemma in_row_prefix : forall f N g k m S, Forall (fun x => marks (fst x) = None) N -> marks g = Some m ->
  in_row f (N ++ (g, k) :: S) = (N ++ (g, f k) :: S)%list /\ innermost (N ++ (g, k) :: S) = Some (g, k).
Proof.
  intros f N g k m S HN Hg. induction HN as [|[g1 k1] N H1 _ IH]; cbn [app in_row innermost].
  - rewrite Hg. auto.
  - cbn [fst] in H1. rewrite H1. destruct IH as [-> IH]. auto.
Qed.

Lemma unit_flow : forall al e al', flow_step al e al' -> unit_ok [IEv e].
Proof.
  intros al e al' H. split; [inversion H; discriminate|].
  intros e0 E N g k k' m S t HN Hg Hf Ht. assert (e0 = e) as -> by (inversion H; subst; cbn in E; congruence). clear H E.
  inversion Hf; subst; cbn [app fits allowed row_step].
  - destruct (in_row_prefix (fun k => k + 1) N g k m S HN Hg) as [-> E]. split; [|exact Ht]. exists g, k, m. auto.
  - destruct (in_row_prefix (fun _ => 0) N g k m S HN Hg) as [-> E]. split; [|exact Ht]. rewrite E. discriminate.
Qed.

Lemma unit_step : forall p, p_buf p = [] -> PInv (fun _ => True) (fun _ => True) p ->
  match next_step p with
  | (OCont, p') => p_buf p' = [] /\ exists c al s, p_stack p = ISub c al :: s /\
      (p_stack p' = s \/ exists l c' al', p_stack p' = (l ++ ISub c' al' :: s)%list /\ piece unit_ok (fun _ _ => True) al c' al' l)
  | _ => True
  end.
Proof.
  intros p Hb (Hs & _ & Hj).
  enough (match next_step p with
    | (OItem (ItEvent e), p') => p_stack p = IEv e :: p_stack p' /\ p_buf p' = []
    | (OItem (ItError _), _) => exists c al s, p_stack p = ISub c al :: s
    | (OCont, p') => p_buf p' = [] /\ exists c al s, p_stack p = ISub c al :: s /\
        (p_stack p' = s \/ exists l c' al', p_stack p' = (l ++ ISub c' al' :: s)%list /\ piece unit_ok (fun _ _ => True) al c' al' l)
    | (ODone, p') => p_stack p = [] /\ p' = p
    | (OPanic x, _) => exists c al s, p_stack p = ISub c al :: s
    | (OFuel, _) => True
    end) by (destruct (next_step p) as [[[]| | | |] ?]; auto).
  apply (shape_step (fun _ => True) (fun _ _ _ _ => I) True unit_ok unit_ok (fun _ _ => True)) with (J := fun _ => True);
    try exact Hb; try exact Hs; try exact I; try (intros; exact I).
  - intros e He. apply unit_one. destruct e; try discriminate; reflexivity.
  - intros s. apply unit_one. reflexivity.
  - intros g q Hg. apply unit_group. destruct g; try discriminate; reflexivity.
  - exact unit_env.
  - intros v a _ Ha. apply unit_cons; [reflexivity|exact Ha].
  - intros v a b _ Ha Hb'. apply unit_cons; [reflexivity|]. apply unit_app; assumption.
  - intros t q a b _ Ha Hb'. apply unit_cons; [reflexivity|]. apply unit_app; assumption.
  - intros q a b c Ha Hb' Hc. apply unit_cons; [reflexivity|]. apply unit_app; [assumption|]. apply unit_app; assumption.
  - exact unit_nil.
  - exact unit_app.
  - intros c. apply unit_one. reflexivity.
  - intros cs _ _. exact unit_nil.
  - auto.
  - intros cs c idx r a _ Ha. apply unit_cons; [reflexivity|]. apply unit_app; [exact Ha|apply unit_one; reflexivity].
  - intros cs c f _ al e al' Hf. split; [|exact I]. apply (unit_group GNormal [IEv (EvState (SCFont f)); IEv e]); [reflexivity|].
    apply unit_cons; [reflexivity|]. eapply unit_flow. exact Hf.
  - intros sl c w x r _ al e al' Hf. split; [|exact I]. eapply unit_flow. exact Hf.
Qed.

Lemma flows_order : forall a b c, (length (flows (a ++ b ++ c)) <= 1)%nat -> flows (a ++ c ++ b) = flows (a ++ b ++ c).
Proof.
  intros a b c. rewrite !flows_app. destruct (flows b) as [|x [|y z]], (flows c) as [|x' z']; rewrite ?app_nil_r; auto;
    rewrite !app_length; cbn; lia.
Qed.

(** What a step puts on the stack. *)
Lemma flow_round : forall p p' c al s l c' al', p_buf p = [] -> next_step p = (OCont, p') ->
  p_stack p = ISub c al :: s -> p_stack p' = (l ++ ISub c' al' :: s)%list -> call_flow al al' l.
Proof.
  intros p p' c al s l c' al' Hb H Es El. unfold next_step in H. rewrite Es in H.
  destruct (is_nil _).
  { injection H as <-. cbn [p_stack] in El. apply (f_equal (@length _)) in El. rewrite app_length in El. cbn in El. lia. }
  destruct (parse parse_fuel (of_parser p c al)) as [r q] eqn:Ep.
  assert (Hf : forall r', r = Ok r' -> call_flow al (i_align (q_ist q)) (i_buf (q_ist q))).
  { intros r' ->. apply parse_flow in Ep; [exact Ep|exact Hb]. }
  destruct r as [[[[e sub] sup]|]|e|x|].
  - destruct (script_order _ _ _ _ _ _ Ep) as (base & s1 & s2 & l' & E1 & E2 & E3 & E4). rewrite E3 in H. injection H as <-.
    specialize (Hf _ eq_refl). rewrite E2 in El. cbn [to_parser p_stack] in El.
    assert (Eq : (IEv e :: base ++ l')%list = l /\ i_align (q_ist q) = al').
    { change (IEv e :: base ++ l' ++ ISub (i_content (q_ist q)) (i_align (q_ist q)) :: s)%list
        with ((IEv e :: base) ++ l' ++ ISub (i_content (q_ist q)) (i_align (q_ist q)) :: s)%list in El.
      rewrite app_assoc in El.
      change (ISub (i_content (q_ist q)) (i_align (q_ist q)) :: s) with ([ISub (i_content (q_ist q)) (i_align (q_ist q))] ++ s)%list in El.
      change (ISub c' al' :: s) with ([ISub c' al'] ++ s)%list in El. rewrite !app_assoc in El. apply app_inv_tail in El.
      apply app_inj_tail in El as [El E5]. split; [exact El|congruence]. }
    destruct Eq as [<- <-].
    assert (Ee : exists t sp, e = EvScript t sp).
    { destruct (any_parse _ _ _ _ _ _ Ep) as [b Hr]. inversion Hr; eauto. }
    destruct Ee as (ty & sp & ->).
    assert (Efl : flows (IEv (EvScript ty sp) :: base ++ l') = flows (base ++ s1 ++ s2)).
    { cbn [flows]. destruct E4 as [[_ ->]|[_ ->]]; [reflexivity|]. apply flows_order. rewrite <- E1.
      destruct Hf as [[-> _]|(e & -> & _)]; cbn; lia. }
    unfold call_flow. rewrite Efl, <- E1. exact Hf.
  - injection H as <-. specialize (Hf _ eq_refl). cbn [to_parser p_stack] in El.
    change (ISub (i_content (q_ist q)) (i_align (q_ist q)) :: s) with ([ISub (i_content (q_ist q)) (i_align (q_ist q))] ++ s)%list in El.
    change (ISub c' al' :: s) with ([ISub c' al'] ++ s)%list in El. rewrite !app_assoc in El. apply app_inv_tail in El.
    apply app_inj_tail in El as [<- E5]. injection E5 as _ <-. exact Hf.
  - destruct (new_error _ _ _) as [[| | |] ?]; discriminate.
  - discriminate.
  - discriminate.
Qed.

(** ** Runs *)

Lemma marks_run : forall n p S, p_buf p = [] -> PInv (fun _ => True) (fun _ => True) p -> fits S (p_stack p) ->
  let '(l, o, p') := run n p in
  error_free l -> forall a e b, events l = (a ++ e :: b)%list -> allowed (fold_left row_step a S) e.
Proof.
  induction n as [|n IH]; intros p S Hb Hp Hd; cbn [run].
  { intros _ a e b E. destruct a; discriminate. }
  pose proof (level_step p Hb Hp) as Hs. pose proof (unit_step p Hb Hp) as Hu.
  assert (Hk := keep_step (fun _ => True) (fun _ _ _ _ => I) (fun _ => True)
    ltac:(intros ? ? ? ? ? ? ? ? ?; exact I) ltac:(intros; exact I) p Hp).
  destruct (next_step p) as [[[e|pe]| | |x| ] p'] eqn:En.
  - destruct Hs as [Es Hb']. rewrite Es in Hd. destruct Hk as [Hk _]. destruct Hd as [Hd1 Hd2].
    specialize (IH p' (row_step S e) Hb' Hk Hd2). destruct (run n p') as [[l o] p''].
    cbn [events]. intros He a e' b E. destruct a as [|x a]; injection E as -> E; [exact Hd1|]. eapply IH; [exact He|exact E].
  - destruct (run n p') as [[l o] p'']. intros He. discriminate He.
  - destruct Hu as (Hb' & c & al & s & Es & Hu). apply (IH p' S Hb' Hk). rewrite Es in Hd.
    destruct Hu as [->|(l & c' & al' & El & Hpc)].
    + destruct al as [[k m]|]; [|exact Hd]. destruct S as [|[g k0] S]; [destruct Hd|]. destruct Hd as (-> & _ & Hd). apply Hd.
    + pose proof (flow_round p p' c al s l c' al' Hb En Es El) as Hf. rewrite El.
      assert (Hl : unit_ok l) by (inversion Hpc as [l0 Hl _|e Hfl|_ _]; subst; [exact Hl|eapply unit_flow; exact Hfl|exact unit_nil]).
      destruct Hf as [[Hf ->]|(e & Hf & Hst)].
      * apply Hl; [exact Hf|]. destruct al as [[k m]|]; [|exact Hd]. exact Hd.
      * destruct al as [[k m]|]; [|inversion Hst].
        assert (exists k', al' = Some (k', m)) as [k' ->] by (inversion Hst; eauto).
        destruct S as [|[g k0] S]; [destruct Hd|]. destruct Hd as (-> & Hg & Hd).
        apply (proj2 Hl e Hf [] g k k' m S); [constructor|exact Hg|exact Hst|]. cbn. auto.
  - intros _ a e b E. destruct a; discriminate.
  - intros _ a e b E. destruct a; discriminate.
  - intros _ a e b E. destruct a; discriminate.
Qed.

Lemma marks_everywhere : forall input l, yields input l -> error_free l -> marks_allowed (events l) /\ lines_allowed (events l).
Proof.
  intros input l [n H] He. pose proof (marks_run n (new_parser input) [] eq_refl (any_start _) I) as Hr.
  destruct (run n (new_parser input)) as [[l' o] p]. cbn in H. subst l'. specialize (Hr He). split.
  - intros a b E. apply (Hr a _ b E).
  - intros a sp hl b E. apply (Hr a _ b E).
Qed.
