(** * RenderMore: fonts, colours, look-ahead and the frame of the document. *)

From Coq Require Import List NArith ZArith Bool Lia.
From Verif Require Import Base Float32 Event Tables Prim FontTable Spans DisplayFacts Mathml SpecEvent SpecStream SpecXml SpecFont
  XmlFacts RenderFacts RenderTree RenderDoc.
Import ListNotations.
Open Scope N_scope.
Open Scope sm_scope.

(** ** Fonts *)

Definition all_fonts : list font :=
  [FBoldScript; FBoldItalic; FBold; FBoldSymbol; FFraktur; FScript; FMonospace; FSansSerif; FDoubleStruck;
   FDoubleStruckItalic; FItalic; FBoldFraktur; FSansSerifBoldItalic; FSansSerifItalic; FBoldSansSerif; FUpRight].
Lemma all_fonts_spec : forall f, In f all_fonts.
Proof. intros []; cbn; tauto. Qed.

(** The characters the code maps elsewhere. *)
Definition wrong (f : font) (c : char) : bool :=
  match f with
  | FBold => (c =? 988) || (c =? 989)
  | FFraktur => c =? 73
  | FSansSerifItalic => (65 <=? c) && (c <=? 90)
  | _ => false
  end.

Fixpoint upto (n : nat) (c : N) : list N := match n with O => [] | S n' => c :: upto n' (c + 1) end.
Lemma upto_in : forall n c x, c <= x < c + N.of_nat n -> In x (upto n c).
Proof.
  induction n as [|n IH]; intros c x H; [lia|]. cbn [upto]. destruct (N.eq_dec c x) as [->|]; [now left|right].
  apply IH. lia.
Qed.

Lemma table_agrees : forallb (fun f => forallb (fun c => wrong f c || (c + font_offset c (font_ranges f) =? styled f c)) (upto (N.to_nat 9000) 0)) all_fonts = true.
Proof. vm_compute. reflexivity. Qed.
Lemma ranges_low : forallb (fun f => forallb (fun r => snd (fst r) <? 9000) (font_ranges f)) all_fonts = true.
Proof. vm_compute. reflexivity. Qed.

Lemma styled_high : forall f c, 9000 <= c -> styled f c = c.
Proof.
  intros f c H. unfold styled.
  assert (A : forall l, forallb (fun x => fst x <? 9000) l = true -> assoc c l = None).
  { induction l as [|[k v] l IH]; intro Hl; [reflexivity|]. cbn in Hl |- *. apply andb_prop in Hl as [H1 H2].
    apply N.ltb_lt in H1. destruct (N.eqb_spec k c); [lia|auto]. }
  assert (L : letterlike f c = None) by (destruct f; cbn [letterlike]; try reflexivity; apply A; reflexivity).
  rewrite L. assert (B : forall a, a < 9000 -> (c <=? a) = false) by (intros a Ha; apply N.leb_gt; lia).
  assert (E : forall a, a < 9000 -> (c =? a) = false) by (intros a Ha; apply N.eqb_neq; lia).
  unfold greek_index. rewrite !B, !E by reflexivity. now rewrite !andb_false_r.
Qed.

Lemma font_correct : forall f c, valid_char c = true -> wrong f c = false -> map_char f c = Ok (styled f c).
Proof.
  intros f c Hv Hw. rewrite (map_char_ok f c Hv). f_equal. destruct (N.lt_ge_cases c 9000) as [H|H].
  - pose proof (proj1 (forallb_forall _ _) table_agrees f (all_fonts_spec f)) as T. cbv beta in T.
    pose proof (proj1 (forallb_forall _ _) T c) as T'. cbv beta in T'. rewrite Hw in T'. apply N.eqb_eq. apply T'. apply upto_in. lia.
  - rewrite styled_high by exact H. destruct (font_offset_cases c (font_ranges f)) as [E|(lo & hi & off & H1 & H2 & H3)].
    + rewrite E. apply N.add_0_r.
    + exfalso. pose proof (proj1 (forallb_forall _ _) ranges_low f (all_fonts_spec f)) as T. cbv beta in T.
      pose proof (proj1 (forallb_forall _ _) T _ H1) as T'. cbn in T'. apply N.ltb_lt in T'. lia.
Qed.

Lemma font_wrong : forall f c, wrong f c = true -> exists d, map_char f c = Ok d /\ d <> styled f c.
Proof.
  intros f c H. destruct f; try discriminate; cbn [wrong] in H.
  - apply orb_true_iff in H. rewrite !N.eqb_eq in H. destruct H as [-> | ->]; eexists; (split; [vm_compute; reflexivity|discriminate]).
  - apply N.eqb_eq in H. subst c. eexists. split; [vm_compute; reflexivity|discriminate].
  - apply andb_prop in H as [H1 H2]. apply N.leb_le in H1, H2.
    assert (Hin : In c (upto 26 65)) by (apply upto_in; lia).
    assert (T : forallb (fun c => match map_char FSansSerifItalic c with Ok d => negb (d =? styled FSansSerifItalic c) | _ => false end) (upto 26 65) = true) by (vm_compute; reflexivity).
    pose proof (proj1 (forallb_forall _ _) T c Hin) as T'. cbv beta in T'. destruct (map_char FSansSerifItalic c) as [d|?|?|]; try discriminate.
    exists d. split; [reflexivity|]. apply negb_true_iff, N.eqb_neq in T'. exact T'.
Qed.

(** ** Looking ahead *)

(** A use of the look-ahead iterator: reading an item, looking at the next one,
    looking one further, looking at one already seen. *)
Inductive use := UNext | UFirst | UFurther | UNth (n : nat).

Section Peek.
Variable A : Type.
Definition use_step (u : use) (m : manypeek A) : option A * manypeek A :=
  match u with
  | UNext => mp_next m
  | UFirst => mp_peek_first m
  | UFurther => mp_peek_next m
  | UNth n => (mp_peeked_nth n m, m)
  end.
(** The answers of all uses, and what is left. *)
Fixpoint use_all (us : list use) (m : manypeek A) : list (option A) * manypeek A :=
  match us with
  | [] => ([], m)
  | u :: us' => let (x, m1) := use_step u m in let (l, m2) := use_all us' m1 in (x :: l, m2)
  end.

(** A list read from left to right, of which [k] further items have been looked at. *)
Definition spec_step (u : use) (l : list A) (k : nat) : option A * list A * nat :=
  match u with
  | UNext => (hd_error l, tl l, Nat.pred k)
  | UFirst => (hd_error l, l, match l with [] => O | _ => Nat.max k 1 end)
  | UFurther => (nth_error l k, l, Nat.min (S k) (length l))
  | UNth n => (if Nat.ltb n k then nth_error l n else None, l, k)
  end.
Fixpoint spec_all (us : list use) (l : list A) (k : nat) : list (option A) * list A :=
  match us with
  | [] => ([], l)
  | u :: us' => let '(x, l1, k1) := spec_step u l k in let (xs, l2) := spec_all us' l1 k1 in (x :: xs, l2)
  end.

Lemma use_spec : forall u (m : manypeek A),
  spec_step u (stream m) (length (peeked m)) =
  (fst (use_step u m), stream (snd (use_step u m)), length (peeked (snd (use_step u m)))).
Proof.
  intros u [p l]. unfold stream. cbn [peeked iter]. destruct u; cbn [use_step spec_step].
  - destruct p as [|x p], l as [|y l]; reflexivity.
  - unfold mp_peek_first, mp_peek_next. cbn [peeked iter]. destruct p as [|x p]; [destruct l; reflexivity|].
    cbn [length app hd_error fst snd peeked iter]. rewrite Nat.max_l by lia. reflexivity.
  - unfold mp_peek_next. cbn [peeked iter]. rewrite nth_error_app2 by lia. rewrite Nat.sub_diag, app_length.
    destruct l as [|y l]; cbn [fst snd nth_error peeked iter length].
    + rewrite Nat.add_0_r, Nat.min_r by lia. reflexivity.
    + rewrite app_length. cbn [length]. rewrite <- app_assoc. cbn [app]. rewrite Nat.min_l by lia. f_equal. lia.
  - unfold mp_peeked_nth. cbn [peeked iter fst snd]. destruct (Nat.ltb_spec n (length p)).
    + now rewrite nth_error_app1.
    + assert (E : nth_error p n = None) by (apply nth_error_None; lia). now rewrite E.
Qed.

Lemma uses_spec : forall us (m : manypeek A), spec_all us (stream m) (length (peeked m)) = (fst (use_all us m), stream (snd (use_all us m))).
Proof.
  induction us as [|u us IH]; intro m; [reflexivity|]. cbn [spec_all use_all]. rewrite use_spec.
  destruct (use_step u m) as [x m1]. cbn [fst snd]. rewrite IH. destruct (use_all us m1) as [xs m2]. reflexivity.
Qed.
End Peek.

(** ** The output only grows *)

Definition grows {A} (m : R A) : Prop := forall r x r', m r = (x, r') -> exists t, r_out r' = (r_out r ++ t)%list.

Lemma g_ret : forall A (x : A), grows (ret x).
Proof. intros A x r y r' H. injection H as _ <-. exists []. now rewrite app_nil_r. Qed.
Lemma g_bind : forall A B (m : R A) (f : A -> R B), grows m -> (forall x, grows (f x)) -> grows (bind m f).
Proof.
  intros A B m f H1 H2 r x r' H. unfold bind in H. destruct (m r) as [[y|e|p|] r1] eqn:E;
    [|injection H as _ <-; eapply H1; exact E..].
  destruct (H1 _ _ _ E) as (t & T). destruct (H2 y r1 x r' H) as (t' & T'). exists (t ++ t')%list. now rewrite T', T, app_assoc.
Qed.
Lemma g_same : forall f, (forall r, r_out (f r) = r_out r) -> grows (modify f).
Proof. intros f Hf r x r' H. injection H as _ <-. exists []. now rewrite Hf, app_nil_r. Qed.
Lemma g_wr : forall s, grows (wr s).
Proof. intros s r x r' H. injection H as _ <-. now exists s. Qed.
Lemma g_get : grows get.
Proof. intros r x r' H. injection H as _ <-. exists []. now rewrite app_nil_r. Qed.
Lemma g_of_res : forall A (x : res A), grows (of_res x).
Proof. intros A x r y r' H. injection H as _ <-. exists []. now rewrite app_nil_r. Qed.
Lemma g_panic : forall A p, grows (@panic_with rst A p).
Proof. intros A p r y r' H. injection H as _ <-. exists []. now rewrite app_nil_r. Qed.
Lemma g_state : grows state.
Proof. intros r x r' H. unfold state in H. destruct (r_states r); injection H as _ <-; exists []; now rewrite app_nil_r. Qed.
Lemma g_mod_state : forall f, grows (mod_state f).
Proof. intros f r x r' H. unfold mod_state in H. destruct (r_states r); injection H as _ <-; exists []; now rewrite app_nil_r. Qed.
Lemma g_in_first : grows in_first.
Proof. intros r x r' H. unfold in_first in H. destruct (mp_peek_first _); injection H as _ <-; exists []; now rewrite app_nil_r. Qed.
Lemma g_in_next : grows in_next.
Proof. intros r x r' H. unfold in_next in H. destruct (mp_next _); injection H as _ <-; exists []; now rewrite app_nil_r. Qed.
Lemma g_next_atom : grows next_atom.
Proof. intros r x r' H. unfold next_atom in H. destruct (next_atom_loop _ _ _); injection H as _ <-; exists []; now rewrite app_nil_r. Qed.
Lemma g_in_length : grows in_length.
Proof. intros r x r' H. injection H as _ <-. exists []. now rewrite app_nil_r. Qed.
Lemma g_prev_atom : forall a, grows (set_previous_atom a).
Proof. intros a. apply g_same. intro r. now destruct (keeps_previous (r_envs r)). Qed.

Ltac gstep :=
  match goal with
  | |- grows (bind _ _) => apply g_bind; [|intros ?]
  | |- grows (ret _) => apply g_ret
  | |- grows (wr _) => apply g_wr
  | |- grows get => apply g_get
  | |- grows (of_res _) => apply g_of_res
  | |- grows (panic_with _) => apply g_panic
  | |- grows state => apply g_state
  | |- grows (mod_state _) => apply g_mod_state
  | |- grows in_first => apply g_in_first
  | |- grows in_next => apply g_in_next
  | |- grows next_atom => apply g_next_atom
  | |- grows in_length => apply g_in_length
  | |- grows (set_previous_atom _) => apply g_prev_atom
  | |- grows (modify _) => apply g_same; intro; reflexivity
  | |- grows (when ?b _) => unfold when
  | |- grows recover => unfold recover
  | |- grows (push_env _) => unfold push_env
  | |- grows (push_state _) => unfold push_state
  | |- grows (handle_state_change _) => unfold handle_state_change
  | |- grows (open_tag _ _) => unfold open_tag
  | |- grows fn_apply => unfold fn_apply
  | |- grows start_lines => unfold start_lines
  | |- grows open_cell => unfold open_cell
  | |- grows (fence ?d) => unfold fence
  | |- grows (if ?b then _ else _) => destruct b
  | |- grows (match ?x with _ => _ end) => destruct x
  | |- grows (let (_, _) := ?x in _) => destruct x
  end.
Ltac gg := repeat (cbv zeta; gstep).

Lemma g_content : forall cfg c neg, grows (write_content cfg c neg).
Proof. intros cfg c neg. unfold write_content. gg. Qed.
Lemma g_leading : forall f, grows (leading_changes f).
Proof.
  induction f as [|f IH]; cbn [leading_changes].
  - intros r x r' H. injection H as _ <-. exists []. now rewrite app_nil_r.
  - gg; apply IH.
Qed.
Lemma g_open_group : forall g, grows (open_group g).
Proof. intros g. unfold open_group. gg. Qed.
Lemma g_begin : forall g, grows (begin_group g).
Proof. intros g. unfold begin_group. gg; try apply g_leading; try apply g_open_group. Qed.
Lemma g_end : grows end_group.
Proof. unfold end_group, close_group. gg. Qed.
Lemma g_visual : forall cfg v, grows (write_visual cfg v).
Proof. intros cfg v. unfold write_visual. gg; apply g_content. Qed.
Lemma g_newline : forall sp hl, grows (write_newline sp hl).
Proof. intros. unfold write_newline. gg. Qed.
Lemma g_alignment : grows write_alignment.
Proof. unfold write_alignment. gg. Qed.
Lemma g_event : forall cfg i, grows (write_event cfg i).
Proof.
  intros cfg i. unfold write_event. destruct i as [[]|]; try solve [gg].
  - apply g_content.
  - apply g_begin.
  - apply g_end.
  - apply g_visual.
  - destruct f; [apply g_alignment|apply g_newline|gg].
Qed.
Lemma g_close : forall E, grows (close_complete E).
Proof. induction E as [|[] E IH]; cbn [close_complete]; gg; apply IH. Qed.
Lemma g_loop : forall cfg f, grows (render_loop cfg f).
Proof.
  intros cfg. induction f as [|f IH]; cbn [render_loop].
  - intros r x r' H. injection H as _ <-. exists []. now rewrite app_nil_r.
  - unfold render_item. gg; try apply IH; try apply g_event; try apply g_close.
Qed.

(** The frame of the document. *)
Lemma push_frame : forall cfg string items out, push_mathml cfg string items = Ok out ->
  exists mid, out = (string ++ prologue cfg ++ mid ++ epilogue cfg)%list.
Proof.
  intros cfg string items out H. unfold push_mathml, write in H. unfold bind at 1 in H. unfold wr at 1, modify at 1 in H.
  unfold bind at 1 in H. rewrite in_length_spec in H. unfold bind at 1 in H.
  set (r0 := set_out _ _) in H. destruct (render_loop cfg _ r0) as [[x|e|p|] r1] eqn:E; try discriminate.
  destruct (g_loop cfg _ _ _ _ E) as (t & T). unfold bind, recovery, wr, modify in H. cbn [r_out set_out] in H.
  injection H as <-. exists (t ++ flat_map recover_str (r_envs r1))%list. rewrite T. unfold r0. cbn [r_out set_out new_writer].
  now rewrite <- !app_assoc.
Qed.

(** ** Colours *)

(** A reader of the colours of CSS written with decimal numbers. *)
Fixpoint read_dec (acc : N) (s : str) : N * str :=
  match s with
  | c :: s' => if is_digit c then read_dec (10 * acc + (c - 48)) s' else (acc, s)
  | [] => (acc, [])
  end.
Definition read_rgb (s : str) : option (rgb * str) :=
  match strip_prefix (lit "rgb(") s with
  | Some s =>
      let (r, s) := read_dec 0 s in
      match s with
      | 32 :: s =>
          let (g, s) := read_dec 0 s in
          match s with
          | 32 :: s => let (b, s) := read_dec 0 s in match s with 41 :: s => Some ((r, g, b), s) | _ => None end
          | _ => None
          end
      | _ => None
      end
  | None => None
  end.

Lemma bytes_dec : forallb (fun n => let '(m, s) := read_dec 0 (n_dec n) in (m =? n) && is_nil s) (upto 256 0) = true.
Proof. vm_compute. reflexivity. Qed.
Lemma bytes_digits : forallb (fun n => forallb is_digit (n_dec n)) (upto 256 0) = true.
Proof. vm_compute. reflexivity. Qed.

Lemma read_dec_app : forall a acc rest, forallb is_digit a = true ->
  match rest with c :: _ => is_digit c = false | [] => True end ->
  read_dec acc (a ++ rest) = (fst (read_dec acc a), rest).
Proof.
  induction a as [|c a IH]; intros acc rest H Hr; cbn [app read_dec].
  - destruct rest as [|c rest]; [reflexivity|]. cbn [read_dec]. now rewrite Hr.
  - cbn in H. apply andb_prop in H as [H1 H2]. rewrite H1. now apply IH.
Qed.

Lemma read_byte : forall n rest, n < 256 -> match rest with c :: _ => is_digit c = false | [] => True end ->
  read_dec 0 (n_dec n ++ rest) = (n, rest).
Proof.
  intros n rest Hn Hr. assert (Hin : In n (upto 256 0)) by (apply upto_in; lia).
  pose proof (proj1 (forallb_forall _ _) bytes_dec n Hin) as D. pose proof (proj1 (forallb_forall _ _) bytes_digits n Hin) as E. cbv beta in D, E.
  rewrite (read_dec_app _ _ _ E Hr). destruct (read_dec 0 (n_dec n)) as [m s]. apply andb_prop in D as [D _]. apply N.eqb_eq in D. cbn. now rewrite D.
Qed.

Lemma rgb_read : forall r g b rest, r < 256 -> g < 256 -> b < 256 ->
  read_rgb (rgb_str (r, g, b) ++ rest) = Some ((r, g, b), rest).
Proof.
  intros r g b rest Hr Hg Hb. unfold read_rgb, rgb_str. rewrite <- !app_assoc.
  assert (E : strip_prefix (lit "rgb(") (lit "rgb(" ++ n_dec r ++ [32] ++ n_dec g ++ [32] ++ n_dec b ++ lit ")" ++ rest)%list
    = Some (n_dec r ++ [32] ++ n_dec g ++ [32] ++ n_dec b ++ lit ")" ++ rest)%list) by (apply strip_prefix_some; reflexivity).
  rewrite E. rewrite (read_byte r) by (exact Hr || reflexivity). cbn [app].
  rewrite (read_byte g) by (exact Hg || reflexivity). cbn [app].
  rewrite (read_byte b) by (exact Hb || reflexivity). reflexivity.
Qed.
