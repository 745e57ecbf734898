(** * SimRun: whole runs depend only on the text. *)

From Coq Require Import List NArith ZArith Bool Lia Arith.
From Verif Require Import Base Float32 Event Tables Prim PrimTable Lex Macros Primitives Spans Parser
  Terminate Sim.
Import ListNotations.
Open Scope N_scope.

(** The limits on expansions, and the assertion on the place of a text, depend on
    more than the text. *)
Definition stopped {A} (r : res A) : Prop := r = Err EMacroRecursionLimit \/ r = Panic PAssert \/ r = Fuel.

Definition parse_eq : forall g q, parse (S g) q = ltac:(let t := eval cbn [parse] in (parse (S g) q) in exact t) :=
  fun g q => eq_refl.

Lemma parse_sim : forall B B' f q q', R B B' (q_ist q) (q_ist q') ->
  stopped (fst (parse f q)) \/ stopped (fst (parse f q')) \/
  (same_res (script_sim B B') (fst (parse f q)) (fst (parse f q')) /\ R B B' (q_ist (snd (parse f q))) (q_ist (snd (parse f q')))).
Proof.
  intros B B'. induction f as [|f IH]; intros q q' HR; [left; right; right; reflexivity|].
  rewrite !parse_eq.
  assert (Ec : stxt (i_content (q_ist q)) = stxt (i_content (q_ist q'))) by apply HR.
  assert (Em : csim (i_macros (q_ist q)) (i_macros (q_ist q'))) by apply HR. rewrite <- Ec.
  destruct (lex_token (stxt (i_content (q_ist q)))) as [[[cs|ctx]|e|p|] r] eqn:El.
  - rewrite <- (Em cs). destruct (ctx_get (i_macros (q_ist q)) cs) as [d|].
    + set (lim := _ || _). set (lim' := (max_expansion_depth <=? N.of_nat (length (s_exp (q_spans q')))) || _).
      destruct (expand_definition d r) as [[txt k]|e|p|].
      * destruct lim; [left; left; reflexivity|]. destruct lim'; [right; left; left; reflexivity|].
        destruct (add_span _ _ _ (add_total (blen txt) (q_spans q))) as [ra sp] eqn:Ea. apply add_span_never in Ea as (_ & _ & Ea).
        destruct (add_span _ _ _ (add_total (blen txt) (q_spans q'))) as [rb sp'] eqn:Eb. apply add_span_never in Eb as (_ & _ & Eb).
        destruct ra as [[]|?|?|]; try contradiction; [|subst; left; right; left; reflexivity].
        destruct rb as [[]|?|?|]; try contradiction; [|subst; right; left; right; left; reflexivity].
        apply IH. cbn [q_ist]. apply R_content; [reflexivity|exact HR].
      * destruct lim; [left; left; reflexivity|]. destruct lim'; [right; left; left; reflexivity|].
        right. right. split; [reflexivity|]. apply R_content; [reflexivity|exact HR].
      * right. right. split; [reflexivity|]. apply R_content; [reflexivity|exact HR].
      * right. right. split; [exact I|]. apply R_content; [reflexivity|exact HR].
    + right. right. unfold run_inner. cbn [q_ist set_ist].
      pose proof (r_atom B B' _ _ (r_handle_prim B B' cs) _ _ (R_content B B' _ _ _ _ eq_refl HR : R B B'
        (set_content (suffix_slice (i_content (q_ist q)) r) (q_ist q)) (set_content (suffix_slice (i_content (q_ist q')) r) (q_ist q')))) as H.
      destruct (parse_atom _ _) as [a b], (parse_atom _ _) as [a' b']. exact H.
  - right. right. unfold run_inner. cbn [q_ist set_ist].
    pose proof (r_atom B B' _ _ (r_handle_char B B' (suffix_slice (i_content (q_ist q)) ctx) (suffix_slice (i_content (q_ist q')) ctx) eq_refl)
      _ _ (R_content B B' _ _ _ _ eq_refl HR : R B B'
        (set_content (suffix_slice (i_content (q_ist q)) r) (q_ist q)) (set_content (suffix_slice (i_content (q_ist q')) r) (q_ist q')))) as H.
    destruct (parse_atom _ _) as [a b], (parse_atom _ _) as [a' b']. exact H.
  - right. right. assert (HR' := R_content B B' (suffix_slice (i_content (q_ist q)) r) (suffix_slice (i_content (q_ist q')) r) _ _ eq_refl HR).
    destruct e; (split; [reflexivity || exact I|exact HR']).
  - right. right. split; [reflexivity|exact HR].
  - left. right. right. reflexivity.
Qed.

Lemma parse_mono : forall f q, fst (parse f q) <> Fuel -> parse (S f) q = parse f q.
Proof.
  induction f as [|f IH]; intros q H; [exfalso; apply H; reflexivity|].
  rewrite (parse_eq (S f) q). rewrite (parse_eq f q). rewrite (parse_eq f q) in H.
  destruct (lex_token (stxt (i_content (q_ist q)))) as [[[cs|ctx]|e|p|] r]; try reflexivity.
  destruct (ctx_get (i_macros (q_ist q)) cs) as [d|]; [|reflexivity].
  destruct (expand_definition d r) as [[txt k]|e|p|]; try reflexivity. destruct (_ || _); [reflexivity|].
  destruct (add_span _ _ _ _) as [[[]|?|?|] sp]; try reflexivity. apply IH. exact H.
Qed.

(** ** The order of scripts *)

Definition opt_rel {A} (T : A -> A -> Prop) (a b : option A) : Prop :=
  match a, b with Some x, Some y => T x y | None, None => True | _, _ => False end.

Lemma write_at_sim : forall A (T : A -> A -> Prop) l l' i x x', T x x' -> Forall2 (opt_rel T) l l' ->
  opt_rel (Forall2 (opt_rel T)) (write_at i x l) (write_at i x' l').
Proof.
  intros A T l l' i x x' Hx H. revert i. induction H as [|y y' l l' Hy Hl IH]; intros i; [destruct i; exact I|].
  destruct i as [|i]; cbn [write_at].
  - cbn. constructor; assumption.
  - specialize (IH i). destruct (write_at i x l), (write_at i x' l'); try contradiction; [|exact I]. constructor; assumption.
Qed.

Lemma spare_loop_sim : forall A (T : A -> A -> Prop) n l l', Forall2 T l l' -> forall i s s', Forall2 (opt_rel T) s s' ->
  opt_rel (Forall2 (opt_rel T)) (spare_loop n i l s) (spare_loop n i l' s').
Proof.
  intros A T n l l' H. induction H as [|x x' l l' Hx Hl IH]; intros i s s' Hs; cbn [spare_loop]; [exact Hs|].
  pose proof (write_at_sim A T s s' (if Nat.eqb i n then O else i) x x' Hx Hs) as Hw.
  destruct (write_at _ x s), (write_at _ x' s'); try contradiction; [|exact I]. apply IH. exact Hw.
Qed.

Lemma all_init_sim : forall A (T : A -> A -> Prop) l l', Forall2 (opt_rel T) l l' ->
  opt_rel (Forall2 T) (all_init l) (all_init l').
Proof.
  intros A T l l' H. induction H as [|x x' l l' Hx Hl IH]; [constructor|]. cbn [all_init].
  destruct x, x'; try contradiction; [|exact I]. destruct (all_init l), (all_init l'); try contradiction; [|exact I].
  constructor; assumption.
Qed.

Lemma Forall2_rev : forall A (T : A -> A -> Prop) l l', Forall2 T l l' -> Forall2 T (rev l) (rev l').
Proof. induction 1; cbn; [constructor|]. apply Forall2_app; [assumption|]. constructor; [assumption|constructor]. Qed.

Lemma order_sim : forall n m b b', Forall2 isim b b' -> same_res (Forall2 isim) (order_scripts n m b) (order_scripts n m b').
Proof.
  intros n m b b' H. unfold order_scripts. destruct (Nat.ltb m n); [|apply Forall2_skipn; exact H].
  assert (Hr : Forall2 isim (rev (skipn m b)) (rev (skipn m b'))) by (apply Forall2_rev, Forall2_skipn; exact H).
  rewrite <- (Forall2_len _ _ _ _ Hr).
  assert (Hn : Forall2 (opt_rel isim) (repeat None (length (rev (skipn m b)))) (repeat None (length (rev (skipn m b))))).
  { induction (length (rev (skipn m b))); constructor; [exact I|assumption]. }
  pose proof (spare_loop_sim _ isim (length (rev (skipn m b))) _ _ Hr (n - m)%nat _ _ Hn) as Hs.
  destruct (spare_loop _ _ (rev (skipn m b)) _), (spare_loop _ _ (rev (skipn m b')) _); try contradiction; [|reflexivity].
  apply all_init_sim in Hs. destruct (all_init l), (all_init l0); try contradiction; [|reflexivity]. cbn. apply Forall2_rev. exact Hs.
Qed.

(** ** The iterator *)

Definition psim (p p' : parser) : Prop :=
  Forall2 isim (p_stack p) (p_stack p') /\ Forall2 isim (p_buf p) (p_buf p') /\ csim (p_macros p) (p_macros p').

Definition halted (o : outcome) : Prop :=
  o = OPanic PAssert \/ o = OFuel \/ exists pe, o = OItem (ItError pe) /\ pe_kind pe = EMacroRecursionLimit.

(** The errors are compared by their kind only. *)
Definition same_out (o o' : outcome) : Prop :=
  match o, o' with
  | OItem (ItEvent e), OItem (ItEvent e') => e = e'
  | OItem (ItError pe), OItem (ItError pe') => pe_kind pe = pe_kind pe'
  | OItem (ItError _), OPanic _ | OPanic _, OItem (ItError _) => True
  | OPanic _, OPanic _ => True
  | OCont, OCont | ODone, ODone | OFuel, OFuel => True
  | _, _ => False
  end.

Definition going (o : outcome) : bool :=
  match o with OItem (ItEvent _) | OCont => true | _ => false end.

(** What follows a call of [parse]. *)
Definition after (s : list instr) (x : res (option script) * pst) : outcome * parser :=
  let (r, q) := x in
  let st := q_ist q in
  let top := ISub (i_content st) (i_align st) in
  match r with
  | Err e =>
      match new_error e (i_content st) (q_spans q) with
      | (Ok pe, sp) =>
          (OItem (ItError pe),
           mkParser (top :: s) (i_buf st) (i_macros st) sp (q_next q) (q_alloc q))
      | (Panic x, sp) => (OPanic x, to_parser (top :: s) (i_buf st) q)
      | (_, sp) => (OFuel, to_parser (top :: s) (i_buf st) q)
      end
  | Ok (Some (e, sub, sup)) =>
      match order_scripts sub sup (i_buf st) with
      | Ok l =>
          (OCont, to_parser (IEv e :: firstn (Nat.min sub sup) (i_buf st) ++ l ++ top :: s) [] q)
      | Panic x => (OPanic x, to_parser (top :: s) (i_buf st) q)
      | _ => (OFuel, to_parser (top :: s) (i_buf st) q)
      end
  | Ok None => (OCont, to_parser (i_buf st ++ top :: s) [] q)
  | Panic x => (OPanic x, to_parser (top :: s) (i_buf st) q)
  | Fuel => (OFuel, to_parser (top :: s) (i_buf st) q)
  end.

Lemma next_step_eq : forall p, next_step p =
  match p_stack p with
  | [] => (ODone, p)
  | IEv e :: s =>
      (OItem (ItEvent e), mkParser s (p_buf p) (p_macros p) (p_spans p) (p_next p) (p_alloc p))
  | ISub c al :: s =>
      if is_nil (trim_start (stxt c)) then
        (OCont, mkParser s (p_buf p) (p_macros p) (p_spans p) (p_next p) (p_alloc p))
      else after s (parse parse_fuel (of_parser p c al))
  end.
Proof.
  intros p. unfold next_step. destruct (p_stack p) as [|[e|c al] s]; [reflexivity|reflexivity|]. destruct (is_nil _); [reflexivity|].
  generalize (parse parse_fuel (of_parser p c al)). intros [r q]. reflexivity.
Qed.

Lemma after_stopped : forall s x, stopped (fst x) ->
  match fst (after s x) with
  | OItem (ItError pe) => pe_kind pe = EMacroRecursionLimit
  | OPanic _ | OFuel => True
  | _ => False
  end.
Proof.
  intros s [r q] H. cbn [fst] in H. destruct H as [->|[->| ->]]; cbn [after]; try exact I.
  destruct (new_error _ _ _) as [r sp] eqn:E. pose proof (new_error_never _ _ _ _ _ E) as Hn.
  destruct r; cbn [fst]; try contradiction; try exact I. apply Hn.
Qed.

Definition stopped_out (o : outcome) : Prop :=
  match o with
  | OItem (ItError pe) => pe_kind pe = EMacroRecursionLimit
  | OPanic _ | OFuel => True
  | _ => False
  end.

Definition same_step (x y : outcome * parser) : Prop :=
  stopped_out (fst x) \/ stopped_out (fst y) \/
  (same_out (fst x) (fst y) /\ (going (fst x) = true -> psim (snd x) (snd y))).

Lemma after_sim : forall s s' x x', Forall2 isim s s' ->
  stopped (fst x) \/ stopped (fst x') \/
  (same_res (script_sim [] []) (fst x) (fst x') /\ R [] [] (q_ist (snd x)) (q_ist (snd x'))) ->
  same_step (after s x) (after s' x').
Proof.
  intros s s' x x' Hs [H|[H|[H1 H2]]].
  - left. apply (after_stopped s) in H. exact H.
  - right. left. apply (after_stopped s') in H. exact H.
  - right. right. destruct x as [r q], x' as [r' q']. cbn [fst snd] in *.
    destruct H2 as (Hc & (b & b' & Eb & Eb' & Hb) & _ & _ & _ & _ & Hal & Hm). cbn [app] in Eb, Eb'.
    assert (Htop : Forall2 isim (ISub (i_content (q_ist q)) (i_align (q_ist q)) :: s) (ISub (i_content (q_ist q')) (i_align (q_ist q')) :: s')).
    { constructor; [split; assumption|exact Hs]. }
    destruct r as [[[[e n] m]|]|e|y|], r' as [[[[e' n'] m']|]|e'|y'|]; cbn in H1; try contradiction; cbn [after].
    + destruct H1 as (<- & (k & -> & ->) & (j & -> & ->)). cbn [length Nat.add]. rewrite Eb, Eb'.
      pose proof (order_sim k j b b' Hb) as Ho. pose proof (order_never k j b) as Hn. destruct (order_scripts k j b), (order_scripts k j b'); cbn in Ho; try contradiction.
      * split; [exact I|]. intros _. unfold psim. cbn. split; [|split; [constructor|exact Hm]].
        constructor; [reflexivity|]. apply Forall2_app; [apply Forall2_firstn; exact Hb|]. apply Forall2_app; assumption.
      * split; [exact I|discriminate].
    + rewrite Eb, Eb'. split; [exact I|]. intros _. split; [|split; [constructor|exact Hm]]. apply Forall2_app; assumption.
    + subst e'. destruct (new_error e _ (q_spans q)) as [re sp] eqn:E1. destruct (new_error e _ (q_spans q')) as [re' sp'] eqn:E2.
      apply new_error_never in E1, E2. destruct re, re'; try contradiction; cbn [fst snd same_out going];
        (split; [|discriminate]); try exact I. destruct E1 as [_ ->], E2 as [_ ->]. reflexivity.
    + split; [exact I|discriminate].
    + split; [exact I|discriminate].
Qed.

Lemma step_sim : forall p p', psim p p' -> same_step (next_step p) (next_step p').
Proof.
  intros p p' (Hs & Hb & Hm). rewrite !next_step_eq. destruct Hs as [|i i' s s' Hi Hs].
  - right. right. split; [exact I|discriminate].
  - destruct i as [e|c al], i' as [e'|c' al']; cbn in Hi; try contradiction.
    + subst e'. right. right. split; [reflexivity|]. intros _. split; [exact Hs|]. split; assumption.
    + destruct Hi as [Hc ->]. rewrite <- Hc. destruct (is_nil _).
      * right. right. split; [exact I|]. intros _. split; [exact Hs|]. split; assumption.
      * apply after_sim; [exact Hs|]. apply parse_sim. split; [exact Hc|]. split; [|cbn; auto 6].
        exists (p_buf p), (p_buf p'). cbn. auto.
Qed.

(** ** What is seen of a run: the events up to the first error, and how that part ends *)

Inductive ending := EndError (e : error) | EndPanic | EndDone.

Definition view := (list event * ending)%type.

Fixpoint view_of (l : list item) (o : outcome) : view :=
  match l with
  | [] => ([], match o with ODone => EndDone | _ => EndPanic end)
  | ItError pe :: _ => ([], EndError (pe_kind pe))
  | ItEvent e :: l' => let (evs, x) := view_of l' o in (e :: evs, x)
  end.

(** Neither a limit on expansions nor a panic. *)
Definition complete (v : view) : Prop := snd v <> EndPanic /\ snd v <> EndError EMacroRecursionLimit.

(** The run of a parser that ends, as it is seen. *)
Definition shows (p : parser) (v : view) : Prop :=
  exists n l o q, run n p = (l, o, q) /\ o <> OFuel /\ v = view_of l o.

Definition shows_of (x : outcome * parser) (v : view) : Prop :=
  match x with
  | (OCont, p') => shows p' v
  | (OItem (ItEvent e), p') => exists v', shows p' v' /\ v = (e :: fst v', snd v')
  | (OItem (ItError pe), p') => v = ([], EndError (pe_kind pe))
  | (ODone, _) => v = ([], EndDone)
  | (OPanic _, _) => v = ([], EndPanic)
  | (OFuel, _) => False
  end.

Lemma shows_step : forall p v, shows p v <-> shows_of (next_step p) v.
Proof.
  intros p v. split.
  - intros (n & l & o & q & H & Ho & ->). destruct n as [|n]; [cbn in H; congruence|]. cbn [run] in H.
    destruct (next_step p) as [[i| | |x| ] p'] eqn:E; cbn [shows_of].
    + destruct (run n p') as [[l' o'] q'] eqn:E2. injection H as <- <- <-. destruct i as [e|pe]; [|reflexivity].
      exists (view_of l' o'). split; [exists n, l', o', q'; auto|]. cbn [view_of]. destruct (view_of l' o'). reflexivity.
    + exists n, l, o, q. auto.
    + injection H as <- <- <-. reflexivity.
    + injection H as <- <- <-. reflexivity.
    + injection H as <- <- <-. contradiction.
  - intros H. unfold shows_of in H. destruct (next_step p) as [[[e|pe]| | |x| ] p'] eqn:E; try contradiction.
    + destruct H as (v' & (n & l & o & q & Hr & Ho & ->) & ->). exists (S n), (ItEvent e :: l), o, q. cbn [run]. rewrite E, Hr.
      split; [reflexivity|]. split; [exact Ho|]. cbn [view_of]. destruct (view_of l o). reflexivity.
    + destruct (run_halts p') as [n Hn]. exists (S n). cbn [run]. rewrite E. destruct (run n p') as [[l o] q] eqn:Er.
      exists (ItError pe :: l), o, q. split; [reflexivity|]. split; [exact Hn|]. rewrite H. reflexivity.
    + destruct H as (n & l & o & q & Hr & Ho & ->). exists (S n), l, o, q. cbn [run]. rewrite E, Hr. auto.
    + exists 1%nat, [], ODone, p'. cbn [run]. rewrite E. split; [reflexivity|]. split; [discriminate|]. exact H.
    + exists 1%nat, [], (OPanic x), p'. cbn [run]. rewrite E. split; [reflexivity|]. split; [discriminate|]. exact H.
Qed.

(** Every parser shows exactly one thing. *)
Lemma shows_total : forall p, exists v, shows p v.
Proof.
  intros p. destruct (run_halts p) as [n Hn]. destruct (run n p) as [[l o] q] eqn:E.
  exists (view_of l o), n, l, o, q. auto.
Qed.

Lemma shows_fun : forall p v v', shows p v -> shows p v' -> v = v'.
Proof.
  intros p v v' (n & l & o & q & H & Ho & ->) (m & l' & o' & q' & H' & Ho' & ->).
  destruct (Nat.le_gt_cases n m) as [Hle|Hle].
  - rewrite (run_more n) in H'; [rewrite H in H'; injection H' as -> -> ->; reflexivity|rewrite H; exact Ho|exact Hle].
  - rewrite (run_more m) in H; [rewrite H' in H; injection H as -> -> ->; reflexivity|rewrite H'; exact Ho'|lia].
Qed.

Lemma same_step_shows : forall x y, same_step x y ->
  (forall v v', going (fst x) = true -> shows (snd x) v -> shows (snd y) v' -> psim (snd x) (snd y) -> complete v -> complete v' -> v = v') ->
  forall v v', shows_of x v -> shows_of y v' -> complete v -> complete v' -> v = v'.
Proof.
  intros [o p] [o' p'] Hs IH v v' Hv Hv' [Hc1 Hc2] [Hc1' Hc2']. unfold same_step in Hs. cbn [fst snd] in *.
  destruct Hs as [Hs|[Hs|[Hs Hg]]].
  - exfalso. destruct o as [[e|pe]| | |z| ]; cbn in Hs, Hv; try contradiction; subst v; cbn in *; congruence.
  - exfalso. destruct o' as [[e|pe]| | |z| ]; cbn in Hs, Hv'; try contradiction; subst v'; cbn in *; congruence.
  - destruct o as [[e|pe]| | |z| ], o' as [[e'|pe']| | |z'| ]; cbn in Hs, Hv, Hv'; try contradiction; subst; try reflexivity;
      try (cbn in *; congruence).
    + destruct Hv as (w & Hw & ->), Hv' as (w' & Hw' & ->). cbn [fst snd] in *.
      assert (w = w'); [|subst; reflexivity]. apply IH; auto; split; assumption.
    + apply IH; auto; split; assumption.
Qed.

Theorem sim_shows : forall p p' v v', psim p p' -> shows p v -> shows p' v' -> complete v -> complete v' -> v = v'.
Proof.
  intros p. induction p as [p IH] using smaller_ind. intros p' v v' Hp Hv Hv' Hc Hc'. rewrite shows_step in Hv, Hv'.
  eapply same_step_shows; [apply step_sim; exact Hp| |exact Hv|exact Hv'|exact Hc|exact Hc'].
  intros w w' Hg H1 H2 H3 H4 H5. eapply IH; try eassumption. pose proof (step_smaller p) as Hs.
  destruct (next_step p) as [[i| | |z| ] p1]; try discriminate; exact Hs.
Qed.

(** ** A macro use behaves as its expansion *)

Lemma parse_not_fuel : forall p c al, fst (parse parse_fuel (of_parser p c al)) <> Fuel.
Proof.
  intros p c al. pose proof (parse_progress parse_fuel (of_parser p c al) (conj eq_refl eq_refl) (fuel_enough _)) as H.
  destruct (parse parse_fuel (of_parser p c al)) as [r q]. apply H.
Qed.

Definition with_stack (s : list instr) (p : parser) : parser :=
  mkParser s (p_buf p) (p_macros p) (p_spans p) (p_next p) (p_alloc p).

Lemma parse_fuel_S : parse_fuel = S 65.
Proof. reflexivity. Qed.

(** The text on the top of the stack replaced. *)
Definition with_text (txt : str) (al : option (N * N)) (p : parser) : parser :=
  mkParser (ISub (mkSlice 0 0 txt) al :: tl (p_stack p)) (p_buf p) (p_macros p) (p_spans p) (p_next p) (p_alloc p).

Lemma expansion_sim : forall p c al s cs r d txt k p' c' s',
  p_stack p = ISub c al :: s -> lex_token (stxt c) = (Ok (TCs cs), r) -> ctx_get (p_macros p) cs = Some d ->
  expand_definition d r = Ok (txt, k) ->
  stxt c' = txt -> Forall2 isim s s' -> Forall2 isim (p_buf p) (p_buf p') -> csim (p_macros p) (p_macros p') ->
  same_step (after s (parse parse_fuel (of_parser p c al))) (after s' (parse parse_fuel (of_parser p' c' al))).
Proof.
  intros p c al s cs r d txt k p' c' s' Hs Hl Hd He Hc' Hs' Hb' Hm'.
  pose proof (parse_not_fuel p c al) as Hnf. apply after_sim; [exact Hs'|].
  rewrite parse_fuel_S in Hnf |- *. rewrite (parse_eq 65 (of_parser p c al)) in Hnf |- *.
  cbn [q_ist of_parser i_content i_macros] in Hnf |- *. rewrite Hl in Hnf |- *. rewrite Hd in Hnf |- *. rewrite He in Hnf |- *.
  destruct (_ || _); [left; left; reflexivity|].
  match goal with |- context [add_span ?a ?b ?c ?d] => destruct (add_span a b c d) as [ra sp] eqn:Ea end.
  apply add_span_never in Ea as (_ & _ & Ea). destruct ra as [[]|?|?|]; try contradiction; [|subst; left; right; left; reflexivity].
  rewrite <- parse_mono by exact Hnf. apply parse_sim. cbn [q_ist]. split; [symmetry; exact Hc'|]. split; [|cbn; auto 6].
  exists (p_buf p), (p_buf p'). split; [reflexivity|]. split; [reflexivity|exact Hb'].
Qed.

Lemma blank_token : forall s, trim_start s = [] -> lex_token s = (Err EToken, []).
Proof.
  intros s H. unfold lex_token. assert (E : skip_blank false s = []); [|rewrite E; reflexivity].
  induction s as [|c s IH]; [reflexivity|]. cbn [trim_start] in H. cbn [skip_blank]. destruct (is_ws c); [auto|discriminate].
Qed.

Lemma parse_blank : forall f q, trim_start (stxt (i_content (q_ist q))) = [] ->
  parse (S f) q = (Ok None, set_ist (set_content (suffix_slice (i_content (q_ist q)) []) (q_ist q)) q).
Proof. intros f q H. rewrite parse_eq. rewrite (blank_token _ H). reflexivity. Qed.

Lemma next_step_text : forall p c al s, p_stack p = ISub c al :: s ->
  next_step p = if is_nil (trim_start (stxt c)) then (OCont, with_stack s p) else after s (parse parse_fuel (of_parser p c al)).
Proof.
  intros p c al s H. rewrite next_step_eq, H. generalize (parse parse_fuel (of_parser p c al)). intros x. reflexivity.
Qed.

Lemma after_blank : forall f p c al s v, p_buf p = [] -> trim_start (stxt c) = [] ->
  shows (with_stack s p) v -> shows_of (after s (parse (S f) (of_parser p c al))) v.
Proof.
  intros f p c al s v Hb Ht Hv. rewrite parse_blank by exact Ht.
  cbn [after shows_of of_parser q_ist set_ist i_buf set_content i_content i_align q_spans q_next q_alloc i_macros].
  rewrite Hb. cbn [app]. apply shows_step.
  match goal with |- shows_of (next_step ?P) _ => rewrite (next_step_text P (suffix_slice c []) al s eq_refl) end.
  cbn [suffix_slice stxt trim_start is_nil shows_of]. unfold with_stack in Hv |- *. cbn [p_buf p_macros p_spans p_next p_alloc].
  rewrite Hb in Hv. exact Hv.
Qed.

Strategy 1000 [parse parse_fuel].

(** A use of a macro shows what a parser that has the expansion in its place shows. *)
Theorem expansion_shows : forall p c al s cs r d txt k p' v v',
  p_stack p = ISub c al :: s -> p_buf p = [] ->
  lex_token (stxt c) = (Ok (TCs cs), r) -> ctx_get (p_macros p) cs = Some d -> expand_definition d r = Ok (txt, k) ->
  psim (with_text txt al p) p' ->
  shows p v -> shows p' v' -> complete v -> complete v' -> v = v'.
Proof.
  intros p c al s cs r d txt k p' v v' Hs Hbuf Hl Hd He (Hps & Hpb & Hpm) Hv Hv' Hc Hc'.
  cbn [p_stack p_buf p_macros with_text] in Hps, Hpb, Hpm. rewrite Hs in Hps. cbn [tl] in Hps.
  inversion Hps as [|? i' ? s' Hi Hss E1 E2]; subst. destruct i' as [e|c' al']; cbn in Hi; [contradiction|]. destruct Hi as [Hct <-].
  symmetry in E2.
  pose proof (expansion_sim p c al s cs r d txt k p' c' s' Hs Hl Hd He (eq_sym Hct) Hss Hpb Hpm) as Hx.
  assert (Hn : is_nil (trim_start (stxt c)) = false).
  { destruct (trim_start (stxt c)) eqn:Et; [|reflexivity]. exfalso. rewrite (blank_token _ Et) in Hl. discriminate. }
  apply shows_step in Hv. rewrite (next_step_text _ _ _ _ Hs), Hn in Hv.
  assert (Hy : shows_of (after s' (parse parse_fuel (of_parser p' c' al))) v').
  { apply shows_step in Hv'. rewrite (next_step_text _ _ _ _ E2) in Hv'.
    destruct (trim_start (stxt c')) as [|x t] eqn:Et; cbn [is_nil] in Hv'.
    - rewrite parse_fuel_S. apply after_blank; [rewrite Hbuf in Hpb; inversion Hpb; reflexivity|exact Et|]. exact Hv'.
    - exact Hv'. }
  revert Hx Hv Hy. generalize (after s (parse parse_fuel (of_parser p c al))) (after s' (parse parse_fuel (of_parser p' c' al))).
  intros x y Hx Hv Hy.
  eapply same_step_shows; [exact Hx| |exact Hv|exact Hy|exact Hc|exact Hc'].
  intros w w' _ H1 H2 H3 H4 H5. eapply sim_shows; eassumption.
Qed.

(** Before the first error the buffer is empty between the rounds. *)
Lemma buf_empty : forall n p l o q, run n p = (l, o, q) -> p_buf p = [] ->
  forallb (fun i => match i with ItError _ => false | _ => true end) l = true ->
  match o with OPanic _ => True | _ => p_buf q = [] end.
Proof.
  induction n as [|n IH]; intros p l o q H Hb Hl; cbn [run] in H; [injection H as <- <- <-; exact Hb|].
  assert (Hstep : match next_step p with
    | (OItem (ItEvent _), p') | (OCont, p') | (ODone, p') => p_buf p' = [] | _ => True end).
  { rewrite next_step_eq. destruct (p_stack p) as [|[e|c al] s]; [exact Hb|exact Hb|]. destruct (is_nil _); [exact Hb|].
    generalize (parse parse_fuel (of_parser p c al)). intros [[[[[e n0] m]|]|e|z|] q0]; cbn [after]; try exact I; try reflexivity.
    - destruct (order_scripts _ _ _); try exact I; reflexivity.
    - destruct (new_error _ _ _) as [[?|?|?|] ?]; exact I. }
  pose proof (step_smaller p) as Hsm.
  destruct (next_step p) as [[[e|pe]| | |x| ] p'] eqn:E; try contradiction.
  - destruct (run n p') as [[l' o'] q'] eqn:Er. injection H as <- <- <-. eapply IH; eassumption.
  - destruct (run n p') as [[l' o'] q'] eqn:Er. injection H as <- <- <-. discriminate.
  - eapply IH; eassumption.
  - injection H as <- <- <-. exact Hstep.
  - injection H as <- <- <-. exact I.
Qed.
