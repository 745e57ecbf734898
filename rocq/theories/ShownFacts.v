(** * ShownFacts: the renderer shows each content and each error of any stream. *)

From Coq Require Import Ascii String List NArith ZArith Bool Lia Arith.
From Verif Require Import Base Float32 Event Tables Lex FontTable Primitives Mathml SpecShown.
Import ListNotations.
Open Scope N_scope.
Open Scope sm_scope.

(** ** Texts in order *)

Lemma in_order_before : forall xs a t, in_order xs t -> in_order xs (a ++ t)%list.
Proof. intros xs a t [t0|b x xs0 t0 H]; [constructor|]. rewrite app_assoc. constructor. exact H. Qed.
Lemma in_order_after : forall xs t b, in_order xs t -> in_order xs (t ++ b)%list.
Proof. intros xs t b H. induction H as [t0|a x xs0 t0 H IH]; [constructor|]. rewrite <- !app_assoc. constructor. exact IH. Qed.
Lemma in_order_app : forall xs ys s t, in_order xs s -> in_order ys t -> in_order (xs ++ ys) (s ++ t)%list.
Proof.
  intros xs ys s t H Ht. induction H as [s0|a x xs0 s0 H IH]; [apply in_order_before, Ht|]. rewrite <- !app_assoc. cbn [app]. constructor. exact IH.
Qed.
Lemma in_order_one : forall x a b, in_order [x] (a ++ x ++ b)%list.
Proof. intros x a b. constructor. constructor. Qed.

(** ** Streams *)

Definition stream (r : rst) : list ritem := (peeked (r_in r) ++ iter (r_in r))%list.

Definition hidden (i : ritem) : bool := negb (visible i) && negb (negation_sign i).

Section Shown.
Variable L : list ritem.

Definition good (r : rst) : Prop := Forall (fun s => font_of L (t_font s)) (r_states r) /\ incl (stream r) L.

(** [m] shows nothing, and passes only what is not to be shown. *)
Definition passes (r r' : rst) : Prop :=
  (exists d, r_out r' = (r_out r ++ d)%list) /\ (exists h, stream r = (h ++ stream r')%list /\ forallb hidden h = true) /\ (good r -> good r').
Definition quiet {A} (m : R A) : Prop := forall r v r', m r = (Ok v, r') -> passes r r'.

Lemma passes_refl : forall r, passes r r.
Proof. intros r. split; [exists []; symmetry; apply app_nil_r|]. split; [exists []; split; reflexivity|auto]. Qed.
Lemma passes_trans : forall a b c, passes a b -> passes b c -> passes a c.
Proof.
  intros a b c ((d & Ed) & (h & Eh & Hh) & Hg) ((d' & Ed') & (h' & Eh' & Hh') & Hg'). split; [exists (d ++ d')%list; rewrite Ed', Ed, app_assoc; reflexivity|].
  split; [exists (h ++ h')%list; split; [rewrite Eh, Eh', app_assoc; reflexivity|rewrite forallb_app, Hh, Hh'; reflexivity]|auto].
Qed.

Lemma q_ret : forall A (v : A), quiet (ret v).
Proof. intros A v r x r' H. injection H as _ <-. apply passes_refl. Qed.
Lemma q_panic : forall A p, quiet (@panic_with _ A p).
Proof. intros A p r x r' H. discriminate. Qed.
Lemma q_fuel : forall A, quiet (fun r => (@Fuel A, r)).
Proof. intros A r x r' H. discriminate. Qed.
Lemma q_of_res : forall A (x : res A), quiet (of_res x).
Proof. intros A x r v r' H. injection H as _ <-. apply passes_refl. Qed.
Lemma q_bind : forall A B (m : R A) (f : A -> R B), quiet m -> (forall v, quiet (f v)) -> quiet (bind m f).
Proof.
  intros A B m f Hm Hf r v r' H. unfold bind in H. destruct (m r) as [[a|e|p|] r1] eqn:E; try discriminate.
  eapply passes_trans; [eapply Hm, E|eapply Hf, H].
Qed.
Lemma q_get : forall A (f : rst -> R A), (forall r, quiet (f r)) -> quiet (bind get f).
Proof. intros A f H r v r' E. unfold bind, get in E. eapply H, E. Qed.
Lemma q_wr : forall t, quiet (wr t).
Proof.
  intros t r v r' H. injection H as _ <-. split; [exists t; reflexivity|]. split; [exists []; split; reflexivity|auto].
Qed.
Lemma q_modify : forall f, (forall r, r_out (f r) = r_out r /\ r_in (f r) = r_in r /\ r_states (f r) = r_states r) -> quiet (modify f).
Proof.
  intros f Hf r v r' H. injection H as _ <-. destruct (Hf r) as (E1 & E2 & E3). split; [exists []; rewrite E1; symmetry; apply app_nil_r|].
  unfold good, stream. rewrite E2, E3. split; [exists []; split; reflexivity|auto].
Qed.
Lemma q_state : quiet state.
Proof. intros r v r' H. unfold state in H. destruct (r_states r); [discriminate|]. injection H as _ <-. apply passes_refl. Qed.
Lemma q_mod_state : forall f, (forall s, font_of L (t_font s) -> font_of L (t_font (f s))) -> quiet (mod_state f).
Proof.
  intros f Hf r v r' H. unfold mod_state in H. destruct (r_states r) as [|s l] eqn:Es; [discriminate|]. injection H as _ <-.
  split; [exists []; symmetry; apply app_nil_r|]. split; [exists []; split; reflexivity|]. intros [G1 G2]. split; [|exact G2]. rewrite Es in G1. cbn [r_states set_states].
  inversion G1; subst. constructor; auto.
Qed.
Lemma q_prev : forall a, quiet (set_previous_atom a).
Proof. intros a. apply q_modify. intros r. destruct (keeps_previous _); repeat split. Qed.
Lemma q_length : quiet in_length.
Proof. intros r v r' H. injection H as _ <-. apply passes_refl. Qed.

Lemma first_stream : forall m x m', mp_peek_first m = (x, m') -> (@peeked ritem m' ++ iter m' = peeked m ++ iter m)%list /\ x = hd_error (peeked m ++ iter m).
Proof.
  intros [p i] x m' H. unfold mp_peek_first, mp_peek_next in H. cbn in H. destruct p as [|y p]; [destruct i as [|y i]|]; injection H as <- <-; split; reflexivity.
Qed.
Lemma next_stream : forall m x m', mp_next m = (x, m') -> match x with Some y => (peeked m ++ iter m = y :: @peeked ritem m' ++ iter m')%list | None => (peeked m ++ iter m = [])%list /\ m' = m end.
Proof.
  intros [p i] x m' H. unfold mp_next in H. cbn in H. destruct p as [|y p]; [destruct i as [|y i]|]; injection H as <- <-; try reflexivity. split; reflexivity.
Qed.
Lemma loop_stream : forall f n m x m', next_atom_loop f n m = (x, m') -> (peeked m' ++ iter m' = peeked m ++ iter m)%list.
Proof.
  induction f as [|f IH]; intros n m x m' H; cbn [next_atom_loop] in H; [injection H as _ <-; reflexivity|].
  destruct (mp_peeked_nth n m) as [i|].
  - destruct (atom_of i); [injection H as _ <-; reflexivity|]. eapply IH, H.
  - destruct m as [p [|y i]]; cbn in H; [injection H as _ <-; reflexivity|].
    destruct (atom_of y); [injection H as _ <-; cbn; rewrite <- app_assoc; reflexivity|]. apply IH in H. rewrite H. cbn. rewrite <- app_assoc. reflexivity.
Qed.

Lemma passes_in : forall r m, (peeked m ++ iter m)%list = stream r -> passes r (set_in m r).
Proof.
  intros r m E. split; [exists []; symmetry; apply app_nil_r|]. unfold good, stream at 2 4. cbn [r_in set_in r_states]. rewrite E. split; [exists []; split; reflexivity|auto].
Qed.
Lemma q_first : quiet in_first.
Proof.
  intros r v r' H. unfold in_first in H. destruct (mp_peek_first (r_in r)) as [x m] eqn:E. injection H as <- <-. apply first_stream in E as [E _]. apply passes_in, E.
Qed.
Lemma q_atom : quiet next_atom.
Proof.
  intros r v r' H. unfold next_atom in H. cbv beta zeta in H. destruct (next_atom_loop _ _ _) as [x m] eqn:E. injection H as _ <-. apply loop_stream in E. apply passes_in, E.
Qed.

(** An item seen is the one taken. *)
Lemma first_next : forall A (f : option ritem -> R A) r v r', (bind in_first f) r = (Ok v, r') ->
  exists r1, passes r r1 /\ stream r1 = stream r /\ f (hd_error (stream r)) r1 = (Ok v, r') /\ r_out r1 = r_out r /\ r_states r1 = r_states r.
Proof.
  intros A f r v r' H. unfold bind, in_first in H. destruct (mp_peek_first (r_in r)) as [x m] eqn:E. apply first_stream in E as [E ->].
  exists (set_in m r). split; [apply passes_in, E|]. split; [exact E|]. split; [exact H|split; reflexivity].
Qed.
Lemma next_taken : forall r v r', in_next r = (Ok v, r') -> v = hd_error (stream r) /\ stream r' = tl (stream r) /\ r_out r' = r_out r /\ r_states r' = r_states r.
Proof.
  intros r v r' H. unfold in_next in H. destruct (mp_next (r_in r)) as [x m] eqn:E. injection H as <- <-. apply next_stream in E. unfold stream. cbn [r_in set_in r_out r_states].
  destruct x as [y|]; [rewrite E; repeat split|]. destruct E as [E ->]. rewrite E. repeat split.
Qed.
Lemma passes_next : forall r i v r', in_next r = (Ok v, r') -> hd_error (stream r) = Some i -> hidden i = true -> passes r r'.
Proof.
  intros r i v r' H Hi Hh. apply next_taken in H as (_ & E2 & E3 & E4). destruct (stream r) as [|j l] eqn:Es; [discriminate|]. injection Hi as ->.
  split; [exists []; rewrite E3; symmetry; apply app_nil_r|]. split; [exists [i]; split; [rewrite Es, E2; reflexivity|cbn; rewrite Hh; reflexivity]|].
  intros [G1 G2]. split; [rewrite E4; exact G1|]. rewrite E2. rewrite Es in G2. intros y Hy. apply G2. right. exact Hy.
Qed.

Ltac pgo := repeat first [assumption | match goal with
  | |- quiet (ret _) => apply q_ret
  | |- quiet (panic_with _) => apply q_panic
  | |- quiet (of_res _) => apply q_of_res
  | |- quiet (wr _) => apply q_wr
  | |- quiet state => apply q_state
  | |- quiet (mod_state _) => apply q_mod_state; intros; solve [assumption | exact I]
  | |- quiet (set_previous_atom _) => apply q_prev
  | |- quiet in_first => apply q_first
  | |- quiet next_atom => apply q_atom
  | |- quiet in_length => apply q_length
  | |- quiet (modify _) => apply q_modify; intros; repeat split
  | |- quiet (bind get _) => apply q_get; intros ?
  | |- quiet (bind _ _) => apply q_bind; [|intros ?]
  | |- quiet (match ?x with _ => _ end) => destruct x
  | |- quiet (let _ := _ in _) => cbv zeta
  | |- quiet (when _ _) => unfold when
  end].

Lemma q_open : forall t c, quiet (open_tag t c).
Proof. intros t c. unfold open_tag. pgo. Qed.
Lemma q_fn_apply : quiet fn_apply.
Proof. unfold fn_apply. pgo. Qed.
Ltac pmore := repeat first [progress pgo | match goal with
  | |- quiet (open_tag _ _) => apply q_open
  | |- quiet fn_apply => apply q_fn_apply
  end].

Lemma q_fence : forall d, quiet (fence d).
Proof. intros d. unfold fence. pmore. Qed.

Lemma q_lines : quiet start_lines.
Proof.
  intros r v r' H. unfold start_lines in H. apply first_next in H as (r1 & Hp & Es & H & _ & _). eapply passes_trans; [exact Hp|]. rewrite <- Es in H.
  destruct (hd_error (stream r1)) as [[[c|g| |v0|ty po|w h d|c|[|sp hl|ls]]|msg]|] eqn:E; try (eapply q_ret, H).
  unfold bind at 1 in H. destruct (wr (env_horizontal_lines ls) r1) as [[[]|e|p|] r2] eqn:E2; try discriminate.
  unfold bind in H. destruct (in_next r2) as [[x|e|p|] r3] eqn:E3; try discriminate. injection H as _ <-.
  eapply passes_trans; [eapply q_wr, E2|]. injection E2 as <-. eapply passes_next; [exact E3|exact E|reflexivity].
Qed.
Lemma q_cell : quiet open_cell.
Proof. unfold open_cell. apply q_bind; [apply q_lines|intros; apply q_wr]. Qed.
Lemma q_group : forall g, quiet (open_group g).
Proof. intros g. unfold open_group. repeat first [progress pmore | apply q_fence | apply q_cell | apply q_lines]. Qed.

Lemma changed_font : forall c s, In (RIEvent (EvState c)) L -> font_of L (t_font s) -> font_of L (t_font (apply_change c s)).
Proof. intros [f|x t|x] s Hi Hs; cbn; [destruct f; [exact Hi|exact I]|destruct t; exact Hs|exact Hs]. Qed.

Lemma q_change : forall c r v r', handle_state_change c r = (Ok v, r') -> In (RIEvent (EvState c)) L -> passes r r'.
Proof. intros c r v r' H Hi. unfold handle_state_change in H. eapply q_mod_state; [|exact H]. intros s. apply changed_font, Hi. Qed.

(** As [quiet], from good states. *)
Definition calm {A} (m : R A) : Prop := forall r v r', m r = (Ok v, r') -> good r -> passes r r'.
Lemma calm_quiet : forall A (m : R A), quiet m -> calm m.
Proof. intros A m H r v r' E _. eapply H, E. Qed.
Lemma calm_bind : forall A B (m : R A) (f : A -> R B), calm m -> (forall v, calm (f v)) -> calm (bind m f).
Proof.
  intros A B m f Hm Hf r v r' H G. unfold bind in H. destruct (m r) as [[a|e|p|] r1] eqn:E; try discriminate. pose proof (Hm _ _ _ E G) as Hp.
  eapply passes_trans; [exact Hp|]. eapply Hf; [exact H|]. apply Hp, G.
Qed.

Lemma calm_changes : forall f, calm (leading_changes f).
Proof.
  induction f as [|f IH]; intros r v r' H G; cbn [leading_changes] in H; [discriminate|].
  apply first_next in H as (r1 & Hp & Es & H & _ & _). eapply passes_trans; [exact Hp|]. assert (G1 : good r1) by (apply Hp, G). rewrite <- Es in H. clear r Hp G Es.
  destruct (hd_error (stream r1)) as [[[c|g| |v0|ty po|w h d|c|fl]|msg]|] eqn:E; try (eapply q_ret, H).
  assert (Hin : In (RIEvent (EvState c)) (stream r1)) by (destruct (stream r1); [discriminate|injection E as ->; now left]).
  unfold bind at 1 in H. destruct (handle_state_change c r1) as [[[]|e|p|] r2] eqn:E2; try discriminate. pose proof (q_change _ _ _ _ E2 (proj2 G1 _ Hin)) as Hp.
  eapply passes_trans; [exact Hp|]. assert (Es : stream r2 = stream r1). { unfold handle_state_change, mod_state in E2. destruct (r_states r1); [discriminate|]. injection E2 as <-. reflexivity. }
  unfold bind in H. destruct (in_next r2) as [[x|e|p|] r3] eqn:E3; try discriminate. rewrite <- Es in E.
  pose proof (passes_next _ _ _ _ E3 E eq_refl) as Hp3. eapply passes_trans; [exact Hp3|]. eapply IH; [exact H|]. apply Hp3, Hp, G1.
Qed.

Lemma push_calm : forall r s, font_of L (t_font s) -> passes r (set_states (s :: r_states r) r).
Proof.
  intros r s Hs. split; [exists []; symmetry; apply app_nil_r|]. split; [exists []; split; reflexivity|]. intros [G1 G2]. split; [constructor; assumption|exact G2].
Qed.
Lemma calm_push : calm (do s <- state ; push_state s).
Proof.
  intros r v r' H G. unfold bind, state in H. destruct (r_states r) as [|s l] eqn:E; [discriminate|]. injection H as _ <-. apply push_calm.
  destruct G as [G _]. rewrite E in G. inversion G; assumption.
Qed.

Lemma bind_assoc : forall A B C (m : R A) (f : A -> R B) (g : B -> R C) r, bind (bind m f) g r = bind m (fun a => bind (f a) g) r.
Proof. intros A B C m f g r. unfold bind. destruct (m r) as [[a|e|p|] r1]; reflexivity. Qed.

Lemma calm_begin : forall g, calm (begin_group g).
Proof.
  intros g. unfold begin_group. apply calm_bind; [apply calm_quiet; pgo|intros _]. apply calm_bind; [|intros _; apply calm_bind; [apply calm_quiet, q_group|intros e; apply calm_quiet; unfold push_env; pgo]].
  destruct (is_math_env g).
  - intros r v r' H _. injection H as _ <-. apply push_calm. exact I.
  - intros r v r' H G. rewrite <- bind_assoc in H. revert r v r' H G. change (calm (bind (do s <- state; push_state s) (fun _ => do n <- in_length; leading_changes (S n);; open_tag (lit "mrow") None;; wr (lit ">");; mod_state (fun s => mkState (t_font s) None None None None)))).
    apply calm_bind; [apply calm_push|intros _]. apply calm_bind; [apply calm_quiet, q_length|intros n]. apply calm_bind; [apply calm_changes|intros _]. apply calm_quiet. pmore.
Qed.

Lemma q_close : forall g, quiet (close_group g).
Proof. intros g. unfold close_group. repeat first [progress pmore | apply q_fence]. Qed.
Lemma q_end : quiet end_group.
Proof.
  intros r v r' H. unfold end_group in H. unfold bind at 1, get at 1 in H. destruct (r_envs r) as [|[g|vi n|ty ab n fn] envs]; try (eapply (q_modify (set_err true)); [intros; repeat split|exact H]).
  unfold bind at 1 in H. cbn [modify] in H. destruct (r_states r) as [|s l] eqn:E; [discriminate|]. unfold bind at 1 in H. cbn [modify] in H.
  eapply passes_trans; [|eapply q_bind; [|intros; apply q_close|exact H]; pgo].
  split; [exists []; symmetry; apply app_nil_r|]. split; [exists []; split; reflexivity|]. intros [G1 G2]. split; [|exact G2]. rewrite E in G1. inversion G1; assumption.
Qed.
Lemma q_newline : forall sp hl, quiet (write_newline sp hl).
Proof. intros sp hl. unfold write_newline, recover. pmore. Qed.
Lemma q_alignment : quiet write_alignment.
Proof. unfold write_alignment, recover. pmore. Qed.
Lemma q_complete : forall l, quiet (close_complete l).
Proof. induction l as [|[g|v n|ty ab n fn] l IH]; cbn [close_complete]; pmore. Qed.

Lemma q_content : forall cfg c n, quiet (write_content cfg c n).
Proof. intros cfg c n. unfold write_content. pmore. Qed.

(** ** Contents *)

(** [m] takes no item. *)
Definition still {A} (m : R A) : Prop := forall r v r', m r = (Ok v, r') -> stream r' = stream r.
Lemma s_bind : forall A B (m : R A) (f : A -> R B), still m -> (forall v, still (f v)) -> still (bind m f).
Proof.
  intros A B m f Hm Hf r v r' H. unfold bind in H. destruct (m r) as [[a|e|p|] r1] eqn:E; try discriminate. rewrite (Hf _ _ _ _ H). eapply Hm, E.
Qed.
Lemma s_get : forall A (f : rst -> R A), (forall r, still (f r)) -> still (bind get f).
Proof. intros A f H r v r' E. unfold bind, get in E. eapply H, E. Qed.
Lemma s_modify : forall f, (forall r, r_in (f r) = r_in r) -> still (modify f).
Proof. intros f Hf r v r' H. injection H as _ <-. unfold stream. rewrite Hf. reflexivity. Qed.
Lemma s_state : still state.
Proof. intros r v r' H. unfold state in H. destruct (r_states r); [discriminate|]. injection H as _ <-. reflexivity. Qed.
Lemma s_same : forall A (x : res A), still (of_res x).
Proof. intros A x r v r' H. injection H as _ <-. reflexivity. Qed.
Lemma s_atom : still next_atom.
Proof.
  intros r v r' H. unfold next_atom in H. cbv beta zeta in H. destruct (next_atom_loop _ _ _) as [x m] eqn:E. injection H as _ <-. apply loop_stream in E. exact E.
Qed.
Ltac sgo := repeat first [assumption | match goal with
  | |- still (ret _) => intros ? ? ? H; injection H as _ <-; reflexivity
  | |- still (of_res _) => apply s_same
  | |- still (wr _) => apply s_modify; reflexivity
  | |- still state => apply s_state
  | |- still (set_previous_atom _) => apply s_modify; intros ?; destruct (keeps_previous _); reflexivity
  | |- still next_atom => apply s_atom
  | |- still (modify _) => apply s_modify; reflexivity
  | |- still (bind get _) => apply s_get; intros ?
  | |- still (bind _ _) => apply s_bind; [|intros ?]
  | |- still (match ?x with _ => _ end) => destruct x
  | |- still (let _ := _ in _) => cbv zeta
  | |- still (when _ _) => unfold when
  | |- still (open_tag _ _) => unfold open_tag
  | |- still fn_apply => unfold fn_apply
  end].
Lemma s_content : forall cfg c n, still (write_content cfg c n).
Proof. intros cfg c n. unfold write_content. sgo. Qed.

(** Steps of a computation. *)
Lemma bind_ok : forall A B (m : R A) (f : A -> R B) r v r', bind m f r = (Ok v, r') -> exists a r1, m r = (Ok a, r1) /\ f a r1 = (Ok v, r').
Proof. intros A B m f r v r' H. unfold bind in H. destruct (m r) as [[a|e|p|] r1]; try discriminate. exists a, r1. split; [reflexivity|exact H]. Qed.

(** What is known of a state: its output, and its fonts. *)
Definition at_out (r : rst) (o : str) (l : list rstate) : Prop := r_out r = o /\ r_states r = l.

Lemma a_wr : forall t r v r' o l, at_out r o l -> wr t r = (Ok v, r') -> at_out r' (o ++ t)%list l.
Proof. intros t r v r' o l [H1 H2] E. injection E as _ <-. split; cbn; [rewrite H1; reflexivity|exact H2]. Qed.
Lemma a_prev : forall a r v r' o l, at_out r o l -> set_previous_atom a r = (Ok v, r') -> at_out r' o l.
Proof. intros a r v r' o l H E. injection E as _ <-. destruct (keeps_previous _); exact H. Qed.
Lemma a_state : forall r s r' o l, at_out r o l -> state r = (Ok s, r') -> at_out r' o l /\ r' = r /\ In s l.
Proof. intros r s r' o l [H1 H2] E. unfold state in E. destruct (r_states r) as [|s0 l0] eqn:Es; [discriminate|]. injection E as <- <-. split; [split; congruence|]. split; [reflexivity|]. rewrite <- H2. now left. Qed.
Lemma a_open : forall t c r v r' o l, at_out r o l -> open_tag t c r = (Ok v, r') -> exists a, at_out r' (o ++ a)%list l.
Proof.
  intros t c r v r' o l H E. unfold open_tag in E. apply bind_ok in E as (s & r1 & E1 & E). destruct (a_state _ _ _ _ _ H E1) as (H1 & _ & _).
  apply bind_ok in E as (r2 & r3 & E2 & E). injection E2 as <- <-. eexists. eapply a_wr; [exact H1|exact E].
Qed.
Lemma a_atom : forall r v r' o l, at_out r o l -> next_atom r = (Ok v, r') -> at_out r' o l.
Proof. intros r v r' o l H E. unfold next_atom in E. cbv beta zeta in E. destruct (next_atom_loop _ _ _) as [x m]. injection E as _ <-. exact H. Qed.
Lemma a_res : forall A (x : res A) r v r' o l, at_out r o l -> of_res x r = (Ok v, r') -> at_out r' o l /\ x = Ok v.
Proof. intros A x r v r' o l H E. injection E as <- <-. split; [exact H|reflexivity]. Qed.
Lemma a_get : forall r v r' o l, at_out r o l -> get r = (Ok v, r') -> at_out r' o l /\ v = r.
Proof. intros r v r' o l H E. injection E as <- <-. split; [exact H|reflexivity]. Qed.
Lemma a_ret : forall A (x v : A) r r' o l, at_out r o l -> ret x r = (Ok v, r') -> at_out r' o l /\ x = v.
Proof. intros A x v r r' o l H E. injection E as <- <-. split; [exact H|reflexivity]. Qed.
Lemma a_when : forall (b : bool) t r v r' o l, at_out r o l -> when b (wr t) r = (Ok v, r') -> at_out r' (o ++ if b then t else [])%list l.
Proof. intros [] t r v r' o l H E; cbn in E; [eapply a_wr; eassumption|]. injection E as _ <-. rewrite app_nil_r. exact H. Qed.

Lemma chars_in : forall f s t, map_chars f s = Ok t -> Forall2 (char_in (Some f)) s t.
Proof.
  intros f. induction s as [|c s IH]; intros t H; cbn [map_chars] in H; [injection H as <-; constructor|].
  destruct (map_char f c) as [d|e|p|] eqn:E; try discriminate. destruct (map_chars f s) as [u|e|p|]; try discriminate. injection H as <-.
  constructor; [apply CI_font, E|apply IH; reflexivity].
Qed.
Lemma plain_in : forall s, Forall2 (char_in None) s s.
Proof. induction s; constructor; [constructor|assumption]. Qed.

Ltac one H := let a := fresh "u" in let r1 := fresh "r" in let E := fresh "E" in apply bind_ok in H as (a & r1 & E & H).

Definition shows_content (c : content) (n : bool) (r r' : rst) : Prop :=
  exists a x b, r_out r' = (r_out r ++ a ++ x ++ b)%list /\ shown L (RIEvent (EvContent c), n) x.
Lemma shows_at : forall c n r r' o l a x b, at_out r' (o ++ a ++ x ++ b)%list l -> r_out r = o -> shown L (RIEvent (EvContent c), n) x -> shows_content c n r r'.
Proof. intros c n r r' o l a x b [H _] <- Hs. exists a, x, b. split; assumption. Qed.

Ltac next := match goal with
  | H : bind _ _ _ = (Ok _, _) |- _ => one H
  | E : wr _ _ = (Ok _, _), G : at_out _ _ _ |- _ => apply (a_wr _ _ _ _ _ _ G) in E; clear G
  | E : open_tag _ _ _ = (Ok _, _), G : at_out _ _ _ |- _ => apply (a_open _ _ _ _ _ _ _ G) in E as [? E]; clear G
  | E : state _ = (Ok _, _), G : at_out _ _ _ |- _ => apply (a_state _ _ _ _ _ G) in E as (E & ? & ?); subst; clear G
  | E : set_previous_atom _ _ = (Ok _, _), G : at_out _ _ _ |- _ => apply (a_prev _ _ _ _ _ _ G) in E; clear G
  | E : next_atom _ = (Ok _, _), G : at_out _ _ _ |- _ => apply (a_atom _ _ _ _ _ G) in E; clear G
  | E : of_res _ _ = (Ok _, _), G : at_out _ _ _ |- _ => apply (a_res _ _ _ _ _ _ _ G) in E as [E ?]; clear G
  | E : get _ = (Ok _, _), G : at_out _ _ _ |- _ => apply (a_get _ _ _ _ _ G) in E as [E ->]; clear G
  | E : ret _ _ = (Ok _, _), G : at_out _ _ _ |- _ => apply (a_ret _ _ _ _ _ _ _ G) in E as [E ?]; subst; clear G
  | E : when _ (wr _) _ = (Ok _, _), G : at_out _ _ _ |- _ => apply (a_when _ _ _ _ _ _ _ G) in E; clear G
  end.

Ltac fin := match goal with H : at_out ?r' _ _ |- shows_content _ _ _ ?r' => destruct H as [H _] end.
Ltac put a x := exists a, x, []; split; [match goal with H : r_out ?r' = _ |- r_out ?r' = _ => rewrite H end; unfold symbols; rewrite ?app_nil_r, <- ?app_assoc; reflexivity|].

Lemma ordinary_char : forall f (up : bool) c o l d r r',
  (match f, up with
   | Some FUpRight, _ | None, true => wr (lit " mathvariant=""normal"">") ;; ret c
   | Some f, up => wr (lit ">") ;; of_res (map_char (match f with FBoldSymbol => if up then FBold else FBoldItalic | _ => f end) c)
   | None, false => wr (lit ">") ;; ret c
   end) r = (Ok d, r') -> at_out r o l -> exists a, at_out r' (o ++ a ++ [62])%list l /\ char_in f c d.
Proof.
  intros [f|] up c o l d r r' E G.
  - destruct f; repeat next; try (exists []; split; [assumption|apply CI_font; assumption]).
    + exists []. split; [assumption|]. destruct up; (eapply CI_bold; [|eassumption]); [left|right]; reflexivity.
    + exists (lit " mathvariant=""normal"""). split; [assumption|apply CI_upright].
  - destruct up; repeat next; [exists (lit " mathvariant=""normal""")|exists []]; (split; [assumption|apply CI_plain]).
Qed.

Lemma content_shown : forall cfg c n r v r', write_content cfg c n r = (Ok v, r') -> good r -> shows_content c n r r'.
Proof.
  intros cfg c n r v r' H [G _]. assert (G0 : at_out r (r_out r) (r_states r)) by (split; reflexivity).
  assert (Gf : forall s, In s (r_states r) -> font_of L (t_font s)) by (apply Forall_forall; exact G). clear G.
  unfold write_content in H. destruct c as [s|s|s|c [] |c sm|c sm|c [d|] sm|c z ty|c].
  - repeat next. destruct (t_font u2) as [f|] eqn:Ef.
    + repeat next. fin. put x ([62] ++ nbsp (space_first s) ++ flat_map markup_free u6 ++ nbsp (space_first (rev s)) ++ lit "</mtext>")%list.
      apply (SH_text L s n (Some f) u6); [rewrite <- Ef; apply Gf; assumption|apply chars_in; assumption].
    + repeat next. fin. put x ([62] ++ nbsp (space_first s) ++ flat_map markup_free (trim s) ++ nbsp (space_first (rev s)) ++ lit "</mtext>")%list.
      apply (SH_text L s n None); [exact I|apply plain_in].
  - repeat next. fin. put x (symbols u2 false (lit "mn")). apply (SH_number L s n (t_font u1) u2); [apply Gf; assumption|].
    destruct (t_font u1) as [[]|]; try (apply chars_in; assumption); [|injection H0 as <-; apply plain_in].
    apply chars_in in H0. clear - H0. induction H0 as [|c d s t Hc H IH]; constructor; [|exact IH]. inversion Hc; subst. eapply CI_bold; [left; reflexivity|assumption].
  - repeat next. assert (Hx : exists b, r_out r' = (r_out r7 ++ b)%list).
    { destruct (mark_fn _) as [l|]; [injection H as _ <-; exists []; symmetry; apply app_nil_r|]. eapply q_fn_apply, H. }
    destruct Hx as [b Hb]. destruct E6 as [E6 _]. rewrite E6 in Hb.
    exists ((if after_operand (r_prev r) then thin_space else []) ++ x ++ (if (length s =? 1)%nat then lit " mathvariant=""normal""" else []))%list, (symbols s false (lit "mi")), b.
    split; [|apply SH_function]. rewrite Hb. unfold symbols. rewrite <- !app_assoc. destruct (length s =? 1)%nat; reflexivity.
  - repeat next. fin. put (lit "<mo stretchy=""true""") (symbols [c] false (lit "mo")). apply SH_stretchy.
  - repeat next. edestruct ordinary_char as (a & Ha & Hc); [eassumption|eassumption|]. clear E1. match goal with X : at_out r0 _ _ |- _ => clear X end.
    repeat next. fin. put (x ++ a)%list (symbols [u1] n (lit "mi")). apply SH_ordinary with (f := t_font u0); [apply Gf; assumption|exact Hc].
  - repeat next. destruct sm; repeat next; fin.
    + put (x ++ lit " largeop=""false"" movablelimits=""false""")%list (symbols [c] n (lit "mo")). apply SH_large.
    + put (x ++ lit " movablelimits=""false""")%list (symbols [c] n (lit "mo")). apply SH_large.
  - repeat next. assert (Hb : at_out r1 (r_out r) (r_states r)) by (destruct (after_operand (r_prev r) && bin_context (r_envs r)); clear E1; repeat next; assumption).
    clear E E0. repeat next. fin. put x (symbols [c] n (if u0 : bool then lit "mo" else lit "mi")). apply SH_binary. destruct u0; [left|right]; reflexivity.
  - repeat next. fin. put x (symbols [c; d] n (lit "mo")). apply SH_relation2.
  - repeat next. fin. put x (symbols [c] n (lit "mo")). apply SH_relation.
  - repeat next. destruct z as [z|]; repeat next; fin.
    + match type of H with _ = ((((((_ ++ ?A) ++ ?B) ++ ?C) ++ _) ++ _) ++ _)%list => put (A ++ B ++ C)%list (symbols [c] n (lit "mo")) end. apply SH_delimiter.
    + match type of H with _ = (((((_ ++ ?A) ++ ?B) ++ _) ++ _) ++ _)%list => put (A ++ B)%list (symbols [c] n (lit "mo")) end. apply SH_delimiter.
  - repeat next. fin. put x (symbols [c] n (lit "mo")). apply SH_punctuation.
Qed.

(** ** Runs *)

Definition vis (b : bool) (l : list ritem) : list (ritem * bool) := filter (fun p => visible (fst p)) (after b l).
Fixpoint turn (b : bool) (l : list ritem) : bool := match l with [] => b | i :: l' => turn (negation_sign i) l' end.
Lemma vis_app : forall l b m, vis b (l ++ m) = (vis b l ++ vis (turn b l) m)%list.
Proof.
  unfold vis. induction l as [|i l IH]; intros b m; [reflexivity|]. cbn [app after filter fst]. rewrite IH. cbn [turn]. destruct (visible i); reflexivity.
Qed.
Lemma vis_hidden : forall h b, forallb hidden h = true -> vis b h = [].
Proof.
  unfold vis. induction h as [|i h IH]; intros b H; [reflexivity|]. cbn [forallb] in H. apply andb_true_iff in H as [H1 H2]. apply andb_true_iff in H1 as [H1 _].
  cbn [after filter fst]. destruct (visible i); [discriminate|]. apply IH, H2.
Qed.
Lemma turn_app : forall l b m, turn b (l ++ m) = turn (turn b l) m.
Proof. induction l as [|i l IH]; intros b m; [reflexivity|]. cbn [app turn]. apply IH. Qed.
Lemma turn_hidden : forall i h b, forallb hidden (i :: h) = true -> turn b (i :: h) = false.
Proof.
  intros i h. revert i. induction h as [|j h IH]; intros i b H; cbn [forallb] in H; apply andb_true_iff in H as [H1 H2].
  - cbn. apply andb_true_iff in H1 as [_ H1]. destruct (negation_sign i); [discriminate|reflexivity].
  - change (turn b (i :: j :: h)) with (turn (negation_sign i) (j :: h)). apply IH. exact H2.
Qed.

(** Contents that are not struck through. *)
Definition tame (l : list ritem) : Prop := match l with RIEvent (EvContent c) :: _ => negatable c = false | _ => True end.
Lemma shown_tame : forall l xs, tame l -> Forall2 (shown L) (vis false l) xs -> Forall2 (shown L) (vis true l) xs.
Proof.
  intros [|i l] xs Ht H; [exact H|]. unfold vis in *. cbn [after filter fst] in *. destruct (visible i) eqn:Ev; [|exact H].
  inversion H as [|p x ps xs' Hx Hxs]; subst. constructor; [|exact Hxs]. destruct i as [[c|g| |v0|ty po|w h d|c|fl]|msg]; try discriminate; [|inversion Hx; subst; constructor; assumption].
  cbn in Ht. destruct c; try discriminate; inversion Hx; subst; econstructor; eassumption.
Qed.

Definition ran (i : ritem) (r r' : rst) : Prop :=
  good r' /\ exists k d xs, r_out r' = (r_out r ++ d)%list /\ stream r = (k ++ stream r')%list /\ in_order xs d /\
    Forall2 (shown L) (vis false (i :: k)) xs /\ (turn false (i :: k) = true -> tame (stream r')).

Lemma ran_passes : forall i r r1 r2, ran i r r1 -> passes r1 r2 -> ran i r r2.
Proof.
  intros i r r1 r2 (G & k & d & xs & E1 & E2 & Ho & Hs & Ht) ((d' & E1') & (h & E2' & Hh) & Hg). split; [auto|].
  exists (k ++ h)%list, (d ++ d')%list, xs. split; [rewrite E1', E1, app_assoc; reflexivity|]. split; [rewrite E2, E2', app_assoc; reflexivity|].
  split; [apply in_order_after, Ho|]. change (i :: k ++ h)%list with ((i :: k) ++ h)%list. rewrite vis_app, (vis_hidden h _ Hh), app_nil_r. split; [exact Hs|].
  rewrite turn_app. destruct h as [|j h]; [cbn [turn app] in *; rewrite E2' in Ht; exact Ht|]. rewrite (turn_hidden j h _ Hh). discriminate.
Qed.
Lemma ran_hidden : forall i r r', hidden i = true -> good r -> passes r r' -> ran i r r'.
Proof.
  intros i r r' Hi G Hp. apply (ran_passes i r r); [|exact Hp]. split; [exact G|]. exists [], [], []. split; [symmetry; apply app_nil_r|]. split; [reflexivity|]. split; [constructor|].
  split; [rewrite (vis_hidden [i]); [constructor|cbn; rewrite Hi; reflexivity]|]. rewrite (turn_hidden i []); [discriminate|cbn; rewrite Hi; reflexivity].
Qed.

Lemma hex_char : forall n c, In c (hex_u8 n) -> c <> 34.
Proof.
  assert (Hd : forall n, hex_digit n <> 34) by (intros n; unfold hex_digit; destruct (N.ltb_spec n 10); lia).
  intros n c H. unfold hex_u8 in H. destruct (n <? 16); cbn [In] in H; intuition (subst; eapply Hd; eassumption).
Qed.

Lemma q_visual : forall cfg v, v <> VNegation -> quiet (write_visual cfg v).
Proof. intros cfg [| |bar|] H; try congruence; unfold write_visual, push_env; pmore. Qed.
Lemma event_ran : forall cfg i r v r', write_event cfg i r = (Ok v, r') -> good r -> In i L -> ran i r r'.
Proof.
  intros cfg i r v r' H G Hi. destruct i as [[c|g| |vi|ty po|w h d|c|[|sp hl|ls]]|msg]; cbn [write_event] in H.
  - destruct (content_shown _ _ _ _ _ _ H G) as (a & x & b & E & Hs). pose proof (s_content _ _ _ _ _ _ H) as Es. split; [eapply q_content; [exact H|exact G]|].
    exists [], (a ++ x ++ b)%list, [x]. split; [exact E|]. split; [symmetry; exact Es|]. split; [apply in_order_one|]. split; [repeat constructor; exact Hs|discriminate].
  - apply ran_hidden; [reflexivity|exact G|]. eapply calm_begin; eassumption.
  - apply ran_hidden; [reflexivity|exact G|]. eapply q_end, H.
  - destruct vi as [| |bar|]; try (apply ran_hidden; [reflexivity|exact G|]; eapply q_visual; [|exact H]; discriminate).
    unfold write_visual in H. apply first_next in H as (r1 & Hp & Es & H & Eo & Est). assert (G1 : good r1) by (apply Hp, G).
    assert (Hq : tame (stream r) -> quiet (open_tag (lit "mrow") (Some (lit "mop-negated")) ;; wr (lit ">") ;; push_env (env_of_visual VNegation)) ->
      (open_tag (lit "mrow") (Some (lit "mop-negated")) ;; wr (lit ">") ;; push_env (env_of_visual VNegation)) r1 = (Ok v, r') -> ran (RIEvent (EvVisual VNegation)) r r').
    { intros Ht Hq E. apply (ran_passes _ r r); [|eapply passes_trans; [exact Hp|eapply Hq, E]]. split; [exact G|]. exists [], [], []. split; [symmetry; apply app_nil_r|].
      split; [reflexivity|]. split; [constructor|]. split; [constructor|]. intros _. exact Ht. }
    assert (Hqq : quiet (open_tag (lit "mrow") (Some (lit "mop-negated")) ;; wr (lit ">") ;; push_env (env_of_visual VNegation))) by (unfold push_env; pmore).
    destruct (stream r) as [|j l] eqn:Er; [apply Hq; [exact I|exact Hqq|exact H]|]. cbn [hd_error] in H.
    destruct j as [[c|g| |v0|ty po|w h d|c|fl]|msg]; try (apply Hq; [exact I|exact Hqq|exact H]).
    destruct (negatable c) eqn:En; [|apply Hq; [exact En|exact Hqq|exact H]]. clear Hq Hqq.
    apply bind_ok in H as (u & r2 & E1 & H). apply bind_ok in H as (y & r3 & E2 & H). injection H as _ <-.
    destruct (content_shown _ _ _ _ _ _ E1 G1) as (a & x & b & E & Hs). pose proof (s_content _ _ _ _ _ _ E1) as Es1. pose proof (q_content _ _ _ _ _ _ E1) as Hp2.
    apply next_taken in E2 as (_ & F2 & F3 & F4). rewrite Es1, Es in F2. cbn [tl] in F2.
    split. { destruct Hp2 as (_ & _ & Hp2). destruct (Hp2 G1) as [K1 K2]. split; [rewrite F4; exact K1|]. rewrite F2. intros z Hz. apply K2. rewrite Es1, Es. right. exact Hz. }
    exists [RIEvent (EvContent c)], (a ++ x ++ b)%list, [x]. split; [rewrite F3, E, Eo; reflexivity|]. split; [rewrite Er, F2; reflexivity|]. split; [apply in_order_one|]. split; [repeat constructor; exact Hs|discriminate].
  - apply ran_hidden; [reflexivity|exact G|]. unfold push_env in H. eapply (q_bind rstate unit); [| |exact H]; [apply q_state|intros s; cbv beta; pmore].
  - apply ran_hidden; [reflexivity|exact G|]. eapply q_wr, H.
  - apply ran_hidden; [reflexivity|exact G|]. eapply q_change; eassumption.
  - apply ran_hidden; [reflexivity|exact G|]. eapply q_alignment, H.
  - apply ran_hidden; [reflexivity|exact G|]. eapply q_newline, H.
  - apply ran_hidden; [reflexivity|exact G|]. unfold recover in H. eapply (q_modify (set_err true)); [intros; repeat split|exact H].
  - apply bind_ok in H as (u & r1 & E1 & H). injection E1 as _ <-. injection H as _ <-. split; [exact G|]. exists [], (error_str (c_error_color cfg) msg), [error_str (c_error_color cfg) msg].
    split; [reflexivity|]. split; [reflexivity|]. split; [|split; [|discriminate]].
    + pose proof (in_order_one (error_str (c_error_color cfg) msg) [] []) as X. rewrite app_nil_r in X. exact X.
    + repeat constructor. unfold error_str. destruct (c_error_color cfg) as [[x y] z].
      replace (lit "<merror style=""border-color: #" ++ hex_u8 x ++ hex_u8 y ++ hex_u8 z ++ lit """><mtext>" ++ msg ++ lit "</mtext></merror>")%list
        with (lit "<merror style=""border-color: #" ++ (hex_u8 x ++ hex_u8 y ++ hex_u8 z) ++ lit """><mtext>" ++ msg ++ lit "</mtext></merror>")%list by (rewrite <- !app_assoc; reflexivity).
      apply SH_error. rewrite !in_app_iff. intros [X|[X|X]]; eapply hex_char; eauto.
Qed.

Lemma loop_ran : forall cfg f r v r', render_loop cfg f r = (Ok v, r') -> good r ->
  exists d xs, r_out r' = (r_out r ++ d)%list /\ in_order xs d /\ Forall2 (shown L) (vis false (stream r)) xs.
Proof.
  intros cfg. induction f as [|f IH]; intros r v r' H G; cbn [render_loop] in H; [discriminate|].
  apply bind_ok in H as (o & r1 & E1 & H). pose proof (next_taken _ _ _ E1) as (-> & E2 & E3 & E4). destruct (stream r) as [|i l] eqn:Es; cbn [hd_error tl] in *.
  - injection H as _ <-. exists [], []. split; [rewrite E3; symmetry; apply app_nil_r|]. split; constructor.
  - apply bind_ok in H as (u & r3 & E5 & H). unfold render_item in E5. apply bind_ok in E5 as (u' & r2 & E5 & E6).
    assert (G1 : good r1). { destruct G as [K1 K2]. split; [rewrite E4; exact K1|]. rewrite E2. intros z Hz. apply K2. rewrite Es. right. exact Hz. }
    assert (Hi : In i L) by (apply (proj2 G); rewrite Es; now left).
    pose proof (event_ran _ _ _ _ _ E5 G1 Hi) as Hr. unfold bind, get in E6. apply (ran_passes _ _ _ r3) in Hr; [|eapply q_complete, E6].
    destruct Hr as (G3 & k & d & xs & F1 & F2 & Fo & Fs & Ft). destruct (IH _ _ _ H G3) as (d' & xs' & F1' & Fo' & Fs').
    exists (d ++ d')%list, (xs ++ xs')%list. split; [rewrite F1', F1, E3, app_assoc; reflexivity|]. split; [apply in_order_app; assumption|].
    rewrite E2 in F2. rewrite F2. change (i :: k ++ stream r3)%list with ((i :: k) ++ stream r3)%list. rewrite vis_app. apply Forall2_app; [exact Fs|].
    destruct (turn false (i :: k)); [apply shown_tame; [apply Ft; reflexivity|exact Fs']|exact Fs'].
Qed.
End Shown.

Theorem all_shown : forall cfg string items out, push_mathml cfg string items = Ok out ->
  exists d xs, out = (string ++ d)%list /\ in_order xs d /\ Forall2 (shown items) (visibles items) xs.
Proof.
  intros cfg string items out H. unfold push_mathml in H. destruct (write cfg (new_writer string items)) as [[[]|e|p|] r'] eqn:E; try discriminate. injection H as <-.
  unfold write in E. apply bind_ok in E as (u & r1 & E1 & E). inversion E1; subst; clear E1. apply bind_ok in E as (n & r2 & E1 & E). inversion E1; subst; clear E1.
  apply bind_ok in E as (u1 & r3 & E1 & E). apply (loop_ran items) in E1 as (d & xs & F1 & Fo & Fs); [|split; [repeat constructor|apply incl_refl]].
  apply bind_ok in E as (u2 & r4 & E2 & E). inversion E2; subst; clear E2. inversion E; subst; clear E. cbn [r_out set_out new_writer] in *. rewrite F1.
  exists (prologue cfg ++ d ++ flat_map recover_str (r_envs r3) ++ epilogue cfg)%list, xs. split; [rewrite <- !app_assoc; reflexivity|].
  split; [apply in_order_before, in_order_after, Fo|exact Fs].
Qed.
