(** * Append: the renderer only appends to its string, and does not look at it. *)

From Coq Require Import List NArith ZArith Bool Lia Arith.
From Verif Require Import Base Float32 Event Tables Lex FontTable Primitives Mathml.
Import ListNotations.
Open Scope N_scope.
Open Scope sm_scope.

(** The same state with more before the output. *)
Definition shift (s : str) (r : rst) : rst := set_out (s ++ r_out r) r.

Definition pre {A} (m : R A) : Prop := forall s r, m (shift s r) = (fst (m r), shift s (snd (m r))).

Lemma pre_ret : forall A (v : A), pre (ret v).
Proof. intros A v s r. reflexivity. Qed.
Lemma pre_panic : forall A p, pre (@panic_with _ A p).
Proof. intros A p s r. reflexivity. Qed.
Lemma pre_of_res : forall A (x : res A), pre (of_res x).
Proof. intros A x s r. reflexivity. Qed.
Lemma pre_bind : forall A B (m : R A) (f : A -> R B), pre m -> (forall v, pre (f v)) -> pre (bind m f).
Proof.
  intros A B m f Hm Hf s r. unfold bind. rewrite (Hm s r). destruct (m r) as [[v|e|p|] r']; cbn [fst snd]; try reflexivity.
  apply Hf.
Qed.
Lemma pre_wr : forall t, pre (wr t).
Proof. intros t s r. unfold wr, modify, shift, set_out. cbn [fst snd r_out r_in r_envs r_states r_prev r_err]. rewrite <- app_assoc. reflexivity. Qed.
Lemma pre_modify : forall f, (forall s r, f (shift s r) = shift s (f r)) -> pre (modify f).
Proof. intros f H s r. unfold modify. cbn [fst snd]. rewrite H. reflexivity. Qed.
Lemma pre_get : forall A (f : rst -> R A), (forall s r, f (shift s r) = f r) -> (forall r, pre (f r)) -> pre (bind get f).
Proof. intros A f H1 H2 s r. unfold bind, get. rewrite H1. apply H2. Qed.
Lemma pre_state : pre state.
Proof. intros s r. unfold state, shift. cbn. destruct (r_states r); reflexivity. Qed.
Lemma pre_mod_state : forall f, pre (mod_state f).
Proof. intros f s r. unfold mod_state, shift. cbn. destruct (r_states r); reflexivity. Qed.
Lemma pre_prev : forall a, pre (set_previous_atom a).
Proof. intros a. apply pre_modify. intros s r. unfold shift. cbn. destruct (keeps_previous _); reflexivity. Qed.
Lemma pre_next : pre in_next.
Proof. intros s r. unfold in_next, shift. cbn. destruct (mp_next (r_in r)); reflexivity. Qed.
Lemma pre_first : pre in_first.
Proof. intros s r. unfold in_first, shift. cbn. destruct (mp_peek_first (r_in r)); reflexivity. Qed.
Lemma pre_atom : pre next_atom.
Proof. intros s r. unfold next_atom, shift. cbn [r_in set_out]. destruct (next_atom_loop _ _ _); reflexivity. Qed.
Lemma pre_length : pre in_length.
Proof. intros s r. reflexivity. Qed.
Lemma pre_fuel : forall A, pre (fun r => (@Fuel A, r)).
Proof. intros A s r. reflexivity. Qed.

Ltac pgo := repeat first [assumption | match goal with
  | |- pre (ret _) => apply pre_ret
  | |- pre (panic_with _) => apply pre_panic
  | |- pre (of_res _) => apply pre_of_res
  | |- pre (wr _) => apply pre_wr
  | |- pre state => apply pre_state
  | |- pre (mod_state _) => apply pre_mod_state
  | |- pre (set_previous_atom _) => apply pre_prev
  | |- pre in_next => apply pre_next
  | |- pre in_first => apply pre_first
  | |- pre next_atom => apply pre_atom
  | |- pre in_length => apply pre_length
  | |- pre (modify _) => apply pre_modify; intros; reflexivity
  | |- pre (bind get _) => apply pre_get; [intros; reflexivity|intros ?]
  | |- pre (bind _ _) => apply pre_bind; [|intros ?]
  | |- pre (match ?x with _ => _ end) => destruct x
  | |- pre (let _ := _ in _) => cbv zeta
  | |- pre (when _ _) => unfold when
  end].

Lemma pre_open : forall t c, pre (open_tag t c).
Proof. intros t c. unfold open_tag. pgo. Qed.
Lemma pre_fn_apply : pre fn_apply.
Proof. unfold fn_apply. pgo. Qed.
Ltac pmore := repeat first [progress pgo | match goal with
  | |- pre (open_tag _ _) => apply pre_open
  | |- pre fn_apply => apply pre_fn_apply
  end].

Lemma pre_content : forall cfg c n, pre (write_content cfg c n).
Proof. intros cfg c n. unfold write_content. pmore. Qed.
Lemma pre_fence : forall d, pre (fence d).
Proof. intros d. unfold fence. pmore. Qed.
Lemma pre_lines : pre start_lines.
Proof. unfold start_lines. pmore. Qed.
Lemma pre_cell : pre open_cell.
Proof. unfold open_cell. apply pre_bind; [apply pre_lines|intros; apply pre_wr]. Qed.
Lemma pre_group : forall g, pre (open_group g).
Proof. intros g. unfold open_group. repeat first [progress pmore | apply pre_fence | apply pre_cell | apply pre_lines]. Qed.
Lemma pre_changes : forall f, pre (leading_changes f).
Proof.
  induction f as [|f IH]; cbn [leading_changes]; [apply pre_fuel|]. unfold handle_state_change. pmore.
Qed.
Lemma pre_begin : forall g, pre (begin_group g).
Proof.
  intros g. unfold begin_group, push_state, push_env.
  repeat first [progress pmore | apply pre_changes | apply pre_group].
Qed.
Lemma pre_close : forall g, pre (close_group g).
Proof. intros g. unfold close_group. repeat first [progress pmore | apply pre_fence]. Qed.
Lemma pre_end : pre end_group.
Proof. unfold end_group, recover. repeat first [progress pmore | apply pre_close]. Qed.
Lemma pre_visual : forall cfg v, pre (write_visual cfg v).
Proof. intros cfg v. unfold write_visual, push_env. repeat first [progress pmore | apply pre_content]. Qed.
Lemma pre_newline : forall sp hl, pre (write_newline sp hl).
Proof. intros sp hl. unfold write_newline, recover. pmore. Qed.
Lemma pre_alignment : pre write_alignment.
Proof. unfold write_alignment, recover. pmore. Qed.
Lemma pre_event : forall cfg i, pre (write_event cfg i).
Proof.
  intros cfg i. unfold write_event, recover, push_env, handle_state_change.
  repeat first [apply pre_content | apply pre_begin | apply pre_end | apply pre_visual | apply pre_newline | apply pre_alignment | progress pmore].
Qed.
Lemma pre_complete : forall l, pre (close_complete l).
Proof. induction l as [|[g|v n|ty ab n fn] l IH]; cbn [close_complete]; pmore. Qed.
Lemma pre_loop : forall cfg f, pre (render_loop cfg f).
Proof.
  intros cfg. induction f as [|f IH]; cbn [render_loop]; [apply pre_fuel|]. unfold render_item.
  repeat first [apply pre_event | apply pre_complete | progress pmore].
Qed.
Lemma pre_write : forall cfg, pre (write cfg).
Proof.
  intros cfg. unfold write, recovery. repeat first [apply pre_loop | progress pmore].
  apply pre_modify. intros s r. unfold shift, set_out. cbn [r_out r_in r_envs r_states r_prev r_err]. rewrite <- app_assoc. reflexivity.
Qed.

Lemma push_appends : forall cfg string items,
  push_mathml cfg string items = match push_mathml cfg [] items with Ok out => Ok (string ++ out)%list | x => x end.
Proof.
  intros cfg string items. unfold push_mathml.
  assert (E : new_writer string items = shift string (new_writer [] items)) by (unfold shift, new_writer, set_out; cbn; rewrite app_nil_r; reflexivity).
  rewrite E, (pre_write cfg string (new_writer [] items)). destruct (write cfg (new_writer [] items)) as [[[]|e|p|] r]; reflexivity.
Qed.
