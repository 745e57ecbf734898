(** * RenderDraw: the renderer writes the tree of SpecDraw. *)

From Coq Require Import List NArith ZArith Bool Lia.
From Verif Require Import Base Float32 Event Tables Prim FontTable Spans DisplayFacts Mathml SpecEvent SpecStream RenderFacts RenderTree SpecDraw.
Import ListNotations.
Open Scope N_scope.
Open Scope sm_scope.
Open Scope list_scope.

(** ** Texts *)

Ltac lits := repeat match goal with |- context [lit ?s] => let v := eval vm_compute in (lit s) in change (lit s) with v end.
Ltac same_text := lits; cbn [app]; repeat (rewrite <- app_assoc; cbn [app]); rewrite ?app_nil_r; reflexivity.

Lemma prints_app : forall a b, prints (a ++ b) = prints a ++ prints b.
Proof. intros. apply flat_map_app. Qed.
Lemma atts_app : forall a b, print_atts (a ++ b) = print_atts a ++ print_atts b.
Proof. intros. apply flat_map_app. Qed.
Lemma prints_cons : forall x l, prints (x :: l) = print x ++ prints l.
Proof. reflexivity. Qed.
Lemma atts_cons : forall x l, print_atts (x :: l) = print_att x ++ print_atts l.
Proof. reflexivity. Qed.
Lemma print_elem : forall n a ks, print (Elem n a ks) = [60] ++ n ++ print_atts a ++ [62] ++ prints ks ++ lit "</" ++ n ++ [62].
Proof. reflexivity. Qed.

(** ** What is in force *)

Definition st_of (k : look) : rstate := mkState (k_font k) (k_colour k) (k_border k) (k_background k) (k_style k).

Lemma st_changed : forall k c, apply_change c (st_of k) = st_of (changed k c).
Proof. intros k [f|x []|s]; reflexivity. Qed.

Lemma join_joined : forall sep l, join sep l = joined sep l.
Proof. intros sep l. induction l as [|x [|y l] IH]; [reflexivity..|]. change (x ++ sep ++ join sep (y :: l) = x ++ sep ++ joined sep (y :: l)). rewrite IH. reflexivity. Qed.

Definition class_atts (c : option str) : list att := match c with Some c => class c | None => [] end.

Lemma open_is : forall E k tag c, open_str E (st_of k) tag c = [60] ++ tag ++ print_atts (look_atts (in_script E) k ++ class_atts c).
Proof.
  intros E k tag c. unfold open_str, look_atts. rewrite !atts_app. do 2 f_equal.
  rewrite <- !app_assoc. f_equal.
  - cbn [st_of t_style]. destruct (k_style k) as [s|]; [|reflexivity]. destruct (in_script E); [reflexivity|]. destruct s; reflexivity.
  - f_equal.
    + change (css_entries (st_of k)) with (css k). destruct (css k) as [|x l] eqn:E1; [reflexivity|]. cbn [print_atts flat_map]. rewrite app_nil_r, join_joined. reflexivity.
    + destruct c; [|reflexivity]. cbn [class_atts class print_atts flat_map]. rewrite app_nil_r. reflexivity.
Qed.

(** ** Places *)

(** The top of the stack for a node in the place [p]. *)
Definition stands (p : place) (E : list env) : Prop :=
  match p with
  | PBody => match E with [] | ENGroup _ :: _ => True | _ => False end
  | PVisual v i => exists E' n, E = ENVisual v n :: E' /\ N.of_nat (visual_arity v) = n + 1 + N.of_nat i
  | PScript i => exists ty ab n fn E', E = ENScript ty ab n fn :: E' /\ N.of_nat (script_arity ty) = n + 1 + N.of_nat i
  end.

Lemma stands_script : forall p E, stands p E -> in_script E = as_script p.
Proof.
  intros [|v i|i] E H; cbn [stands] in H.
  - destruct E as [|[]]; try contradiction; reflexivity.
  - destruct H as (E' & n & -> & _). reflexivity.
  - destruct H as (ty & ab & n & fn & E' & -> & H). cbn [in_script as_script].
    destruct ty; cbn [script_arity] in H; destruct i as [|i]; apply N.eqb_eq || apply N.eqb_neq || apply N.leb_le || apply N.leb_gt; lia.
Qed.

Lemma stands_aside : forall p E, stands p E -> keeps_previous E = aside p.
Proof.
  intros [|v i|i] E H; cbn [stands] in H.
  - destruct E as [|[]]; try contradiction; reflexivity.
  - destruct H as (E' & n & -> & H). cbn [keeps_previous aside]. destruct v; try reflexivity; cbn [visual_arity] in H; destruct i as [|i]; apply N.eqb_eq || apply N.eqb_neq; lia.
  - destruct H as (ty & ab & n & fn & E' & -> & H). cbn [keeps_previous aside].
    destruct ty; cbn [script_arity] in H; destruct i as [|i]; apply N.eqb_eq || apply N.eqb_neq || apply N.leb_le || apply N.leb_gt; lia.
Qed.

Lemma stands_spaced : forall p E, stands p E -> bin_context E = spaced p.
Proof.
  intros [|v i|i] E H; cbn [stands] in H.
  - destruct E as [|[]]; try contradiction; reflexivity.
  - destruct H as (E' & n & -> & H). destruct v; reflexivity.
  - destruct H as (ty & ab & n & fn & E' & -> & H). reflexivity.
Qed.

Lemma stands_mark : forall p E, stands p E -> match p with PScript _ => exists E', mark_fn E = Some E' | _ => mark_fn E = None end.
Proof.
  intros [|v i|i] E H; cbn [stands] in H.
  - destruct E as [|[]]; try contradiction; reflexivity.
  - destruct H as (E' & n & -> & H). reflexivity.
  - destruct H as (ty & ab & n & fn & E' & -> & H). eexists. reflexivity.
Qed.

(** ** Contents *)

(** The state of the renderer, but for how much it has looked ahead and the error mark. *)
Definition is_at (r : rst) (E : list env) (S : list rstate) (p : option atom_class) (o : str) (es : list event) : Prop :=
  r_envs r = E /\ r_states r = S /\ r_prev r = p /\ r_out r = o /\ stream (r_in r) = map RIEvent es.

Fixpoint next_class (es : list event) : option atom_class :=
  match es with
  | [] => None
  | e :: es' => match atom_of (RIEvent e) with None => next_class es' | Some a => a end
  end.
Lemma first_atom_map : forall es, first_atom (map RIEvent es) = next_class es.
Proof. induction es as [|e es IH]; [reflexivity|]. cbn [map first_atom next_class]. rewrite IH. reflexivity. Qed.

Definition marked (c : content) (E : list env) : list env :=
  match c, E with CFunction _, ENScript ty ab n _ :: l => ENScript ty ab n true :: l | _, _ => E end.

(** ** Steps *)

(** [m] yields [x] and ends in a state with [Q]. *)
Definition gives {A} (m : R A) (r : rst) (x : A) (Q : rst -> Prop) : Prop := exists r1, m r = (Ok x, r1) /\ Q r1.

Lemma gives_bind : forall A B (m : R A) (f : A -> R B) r x y Q, gives m r x (fun r1 => gives (f x) r1 y Q) -> gives (bind m f) r y Q.
Proof. intros A B m f r x y Q (r1 & H & r2 & H1 & H2). exists r2. split; [|exact H2]. unfold bind. rewrite H. exact H1. Qed.

Lemma gives_ret : forall A (x : A) r (Q : rst -> Prop), Q r -> gives (ret x) r x Q.
Proof. intros A x r Q H. exists r. split; [reflexivity|exact H]. Qed.

Lemma gives_ret_eq : forall A (x y : A) r (Q : rst -> Prop), x = y -> Q r -> gives (ret x) r y Q.
Proof. intros A x y r Q -> H. apply gives_ret. exact H. Qed.

Lemma gives_more : forall A (m : R A) r x (Q Q' : rst -> Prop), gives m r x Q -> (forall r1, Q r1 -> Q' r1) -> gives m r x Q'.
Proof. intros A m r x Q Q' (r1 & H & H1) H2. exists r1. auto. Qed.

Lemma gives_wr : forall s r E S p o es, is_at r E S p o es -> gives (wr s) r tt (fun r1 => is_at r1 E S p (o ++ s) es).
Proof.
  intros s r E S p o es (H1 & H2 & H3 & H4 & H5). eexists. split; [reflexivity|]. unfold is_at. fields. rewrite H4. auto.
Qed.

Lemma gives_prev : forall a r E S p o es, is_at r E S p o es ->
  gives (set_previous_atom a) r tt (fun r1 => is_at r1 E S (if keeps_previous E then p else Some a) o es).
Proof.
  intros a r E S p o es (H1 & H2 & H3 & H4 & H5). eexists. split; [apply prev_atom_eq|]. unfold is_at. fields. rewrite H1, H3. auto.
Qed.

Lemma gives_set_prev : forall a r E S p o es, is_at r E S p o es -> gives (modify (set_prev a)) r tt (fun r1 => is_at r1 E S a o es).
Proof. intros a r E S p o es (H1 & H2 & H3 & H4 & H5). eexists. split; [reflexivity|]. unfold is_at. fields. auto. Qed.

Lemma gives_set_envs : forall l r E S p o es, is_at r E S p o es -> gives (modify (set_envs l)) r tt (fun r1 => is_at r1 l S p o es).
Proof. intros a r E S p o es (H1 & H2 & H3 & H4 & H5). eexists. split; [reflexivity|]. unfold is_at. fields. auto. Qed.

Lemma gives_push_env : forall e r E S p o es, is_at r E S p o es -> gives (push_env e) r tt (fun r1 => is_at r1 (e :: E) S p o es).
Proof. intros a r E S p o es (H1 & H2 & H3 & H4 & H5). eexists. split; [reflexivity|]. unfold is_at. fields. rewrite H1. auto. Qed.

Lemma gives_push_state : forall e r E S p o es, is_at r E S p o es -> gives (push_state e) r tt (fun r1 => is_at r1 E (e :: S) p o es).
Proof. intros a r E S p o es (H1 & H2 & H3 & H4 & H5). eexists. split; [reflexivity|]. unfold is_at. fields. rewrite H2. auto. Qed.

Lemma gives_mod_state : forall f s r E S p o es, is_at r E (s :: S) p o es -> gives (mod_state f) r tt (fun r1 => is_at r1 E (f s :: S) p o es).
Proof.
  intros f s r E S p o es (H1 & H2 & H3 & H4 & H5). unfold gives, mod_state. rewrite H2. eexists. split; [reflexivity|]. unfold is_at. fields. auto.
Qed.

Lemma gives_state : forall s r E S p o es, is_at r E (s :: S) p o es -> gives state r s (fun r1 => is_at r1 E (s :: S) p o es).
Proof.
  intros s r E S p o es (H1 & H2 & H3 & H4 & H5). unfold gives, state. rewrite H2. eexists. split; [reflexivity|]. unfold is_at. auto.
Qed.

Lemma gives_get : forall r (Q : rst -> Prop), Q r -> gives get r r Q.
Proof. intros r Q H. exists r. split; [reflexivity|exact H]. Qed.

Lemma gives_open : forall tag c k r E S p o es, is_at r E (st_of k :: S) p o es ->
  gives (open_tag tag c) r tt (fun r1 => is_at r1 E (st_of k :: S) p (o ++ [60] ++ tag ++ print_atts (look_atts (in_script E) k ++ class_atts c)) es).
Proof.
  intros tag c k r E S p o es (H1 & H2 & H3 & H4 & H5). eexists. split; [apply (open_tag_spec tag c r _ _ H2)|]. unfold is_at. fields.
  rewrite H1, H4, open_is. auto.
Qed.

Lemma gives_next_atom : forall r E S p o es, is_at r E S p o es -> gives next_atom r (next_class es) (fun r1 => is_at r1 E S p o es).
Proof.
  intros r E S p o es (H1 & H2 & H3 & H4 & H5). destruct (next_atom_spec r) as (m' & Hm & Hs).
  rewrite H5, first_atom_map in Hm. eexists. split; [exact Hm|]. unfold is_at. fields. rewrite <- H5. auto.
Qed.

Lemma at_is : forall r E S p o es p' o', is_at r E S p o es -> p = p' -> o = o' -> is_at r E S p' o' es.
Proof. intros; subst; assumption. Qed.

Lemma gives_nbsp : forall b r E S p o es, is_at r E S p o es -> gives (when b (wr (lit "&nbsp;"))) r tt (fun r1 => is_at r1 E S p (o ++ side_space b) es).
Proof. intros [] r E S p o es A; [apply gives_wr; exact A|]. apply gives_ret. cbn [side_space]. rewrite app_nil_r. exact A. Qed.

Lemma gives_when : forall (b : bool) s r E S p o es, is_at r E S p o es -> gives (when b (wr s)) r tt (fun r1 => is_at r1 E S p (o ++ if b then s else []) es).
Proof. intros [] s r E S p o es A; [apply gives_wr; exact A|]. apply gives_ret. rewrite app_nil_r. exact A. Qed.

Lemma gives_of_res : forall A (x : A) m r (Q : rst -> Prop), m = Ok x -> Q r -> gives (of_res m) r x Q.
Proof. intros A x m r Q -> H. exists r. split; [reflexivity|exact H]. Qed.

(** One step of the computation, whose state the hypothesis [A] tells. *)
Ltac stepw lem A := eapply gives_bind; eapply gives_more; [eapply lem; exact A|]; let r := fresh "r" in clear A; intros r A; cbn beta in A.
Ltac step A := lazymatch goal with
  | |- gives (bind (wr _) _) _ _ _ => stepw gives_wr A
  | |- gives (bind (set_previous_atom _) _) _ _ _ => stepw gives_prev A
  | |- gives (bind (modify (set_prev _)) _) _ _ _ => stepw gives_set_prev A
  | |- gives (bind (modify (set_envs _)) _) _ _ _ => stepw gives_set_envs A
  | |- gives (bind (push_env _) _) _ _ _ => stepw gives_push_env A
  | |- gives (bind (push_state _) _) _ _ _ => stepw gives_push_state A
  | |- gives (bind (mod_state _) _) _ _ _ => stepw gives_mod_state A
  | |- gives (bind state _) _ _ _ => stepw gives_state A
  | |- gives (bind (open_tag _ _) _) _ _ _ => stepw gives_open A
  | |- gives (bind next_atom _) _ _ _ => stepw gives_next_atom A
  | |- gives (bind get _) _ _ _ => eapply gives_bind; eapply gives_get
  | |- gives (bind (ret _) _) _ _ _ => eapply gives_bind; eapply gives_ret
  | |- gives (bind (when _ (wr _)) _) _ _ _ => stepw gives_when A
  | |- gives (bind (bind _ _) _) _ _ _ => eapply gives_bind; eapply gives_bind
  end.
Ltac last A := lazymatch goal with
  | |- gives (wr _) _ _ _ => eapply gives_more; [eapply gives_wr; exact A|]; let r := fresh "r" in clear A; intros r A; cbn beta in A
  | |- gives (ret _) _ _ _ => eapply gives_ret
  end.


(** ** Contents *)

Section Config.
Variable cfg : render_config.
Definition glyph_of (f : font) (c : char) : char := match map_char f c with Ok d => d | _ => c end.
Definition block_of : bool := match c_display cfg with DMBlock => true | DMInline => false end.
Definition upright_of : char -> bool := should_be_upright (c_style cfg).

Lemma map_char_glyph : forall f c, valid_char c = true -> map_char f c = Ok (glyph_of f c).
Proof. intros f c H. unfold glyph_of. rewrite (map_char_ok f c H). reflexivity. Qed.
Lemma map_chars_glyph : forall f s, valid_str s -> map_chars f s = Ok (map (glyph_of f) s).
Proof.
  intros f s H. induction H as [|c s H1 H IH]; [reflexivity|]. cbn [map_chars map]. rewrite (map_char_glyph f c H1), IH. reflexivity.
Qed.

Lemma fn_apply_is : forall r E S p o es, is_at r E S p o es ->
  exists r1, fn_apply r = (Ok tt, r1) /\ is_at r1 E S p (o ++ prints (applied (next_class es))) es.
Proof.
  intros r E S p o es (H1 & H2 & H3 & H4 & H5). unfold fn_apply. destruct (next_atom_spec r) as (m' & Hm & Hs).
  rewrite H5, first_atom_map in Hm. unfold bind at 1. rewrite Hm. 
  assert (Hx : is_at (set_in m' r) E S p o es) by (repeat split; cbn; congruence).
  destruct (next_class es) as [[]|]; eexists; (split; [reflexivity|]); unfold is_at in *; fields; destruct Hx as (E1 & E2 & E3 & E4 & E5);
    repeat split; auto; rewrite H4; fields; cbn [applied prints flat_map]; try (rewrite app_nil_r; reflexivity); unfold wr, modify, ret; fields; rewrite <- ?app_assoc; reflexivity.
Qed.


Lemma fn_apply_gives : forall r E S p o es, is_at r E S p o es ->
  gives fn_apply r tt (fun r1 => is_at r1 E S p (o ++ prints (applied (next_class es))) es).
Proof. intros. apply fn_apply_is. assumption. Qed.

Lemma write_content_is : forall c neg p k prev es r E S o, stands p E -> content_valid c ->
  is_at r E (st_of k :: S) prev o es ->
  let d := draw_content upright_of glyph_of c neg p k prev (next_class es) in
  gives (write_content cfg c neg) r tt (fun r1 => is_at r1 (marked c E) (st_of k :: S) (snd d) (o ++ prints (fst d)) es).
Proof.
  intros c neg p k prev es r E S o Hp Hv A. cbv zeta.
  pose proof (stands_script p E Hp) as Hq. pose proof (stands_aside p E Hp) as Ha. pose proof (stands_spaced p E Hp) as Hb. pose proof (stands_mark p E Hp) as Hf.
  assert (Hn : forall a, next_prev p a prev = if keeps_previous E then prev else Some a) by (intros a; rewrite Ha; reflexivity).
  assert (Hneg : neg_str neg = slash neg) by reflexivity.
  destruct c as [t|t|t|x stretchy|x small|x small|x second small|x size ty|x]; cbn [content_valid] in Hv; unfold write_content, draw_content; cbv zeta; cbn [marked].
  - (* text *)
    step A. step A.
    eapply gives_bind, gives_more; [apply (gives_nbsp _ _ _ _ _ _ _ A)|]. clear A. intros r2 A. cbn beta in A.
    step A.
    match type of A with is_at _ _ _ _ ?O _ => set (o1 := O) in * end.
    eapply gives_bind with (x := tt), gives_more with (Q := fun r1 => is_at r1 E (st_of k :: S) prev (o1 ++ flat_map entity (in_font glyph_of (k_font k) (trim t))) es).
    { cbn [st_of t_font]. destruct (k_font k) as [f|]; cbn [in_font].
      - eapply gives_bind. eapply gives_of_res; [apply (map_chars_glyph f (trim t) (trim_valid t Hv))|]. apply gives_wr. exact A.
      - apply gives_wr. exact A. }
    clear A. intros r4 A. cbn beta in A.
    eapply gives_bind, gives_more; [apply (gives_nbsp _ _ _ _ _ _ _ A)|]. clear A. intros r5 A. cbn beta in A.
    step A. last A. eapply at_is; [exact A|symmetry; apply Hn|]. cbn [fst prints flat_map print]. unfold o1. rewrite Hq. unfold text_of, ends_ws, starts_ws, starts_blank.
    rewrite atts_app. cbn [class_atts print_atts flat_map app]. same_text.
  - (* number *)
    step A. step A. step A.
    eapply gives_bind. eapply gives_of_res with (x := number_of glyph_of k t).
    { unfold number_of. cbn [st_of t_font]. destruct (k_font k) as [[]|]; cbn [in_font]; try reflexivity; apply map_chars_glyph; exact Hv. }
    step A. step A. last A. eapply at_is; [exact A|symmetry; apply Hn|]. cbn [fst prints flat_map print]. rewrite Hq, atts_app. cbn [class_atts print_atts flat_map app]. same_text.
  - (* function *)
    step A. pose proof A as (_ & _ & Hr & _ & _). rewrite Hr. clear Hr.
    step A. step A. step A. step A. step A. step A. step A. pose proof A as (He & _ & _ & _ & _). rewrite He. clear He.
    destruct p as [|v i|i].
    1,2: rewrite Hf; eapply gives_more; [apply fn_apply_gives; exact A|]; clear A; intros r8 A; cbn beta in A;
      destruct E as [|[]]; try discriminate Hf; (eapply at_is; [exact A|symmetry; apply Hn|]); cbn [fst]; rewrite !prints_app, <- Hq;
      destruct (operand prev) eqn:Eo; change (after_operand prev) with (operand prev); rewrite Eo;
      cbn [fst prints flat_map print]; rewrite !atts_app; destruct (Nat.eqb (length t) 1); cbn [class_atts print_atts flat_map app]; same_text.
    destruct Hp as (ty & ab & n & fn & E' & -> & Hp). clear Hf. cbn [mark_fn]. eapply gives_more; [eapply gives_set_envs; exact A|]. clear A. intros r8 A. cbn beta in A.
      (eapply at_is; [exact A|symmetry; apply Hn|]); cbn [fst]; rewrite !prints_app, <- Hq;
      destruct (operand prev) eqn:Eo; change (after_operand prev) with (operand prev); rewrite Eo;
      cbn [fst prints flat_map print]; rewrite !atts_app; destruct (Nat.eqb (length t) 1); cbn [class_atts print_atts flat_map app]; same_text.
  - (* ordinary *)
    destruct stretchy.
    + step A. step A. last A. eapply at_is; [exact A|reflexivity|]. same_text.
    + step A. step A.
      eapply gives_bind with (x := snd (letter_of upright_of glyph_of k x)).
      apply gives_more with (Q := fun r1 => is_at r1 E (st_of k :: S) prev
        ((o ++ [60] ++ lit "mi" ++ print_atts (look_atts (in_script E) k ++ class_atts None)) ++ print_atts (fst (letter_of upright_of glyph_of k x)) ++ [62]) es).
      { pose proof (fun f => map_char_glyph f x Hv) as Hm. unfold letter_of. cbn [st_of t_font]. fold upright_of.
        destruct (k_font k) as [[]|], (upright_of x) eqn:Eu; cbn [fst snd]; step A;
          (eapply gives_ret || (eapply gives_of_res; [apply Hm|])); exact A. }
      clear A. intros r3 A. cbn beta in A. step A. step A. last A. eapply at_is; [exact A|symmetry; apply Hn|].
      cbn [fst prints flat_map print]. rewrite <- Hq, !atts_app, Hneg. cbn [class_atts print_atts flat_map app]. same_text.
  - (* large operator *)
    step A. step A. step A. step A. step A. last A. eapply at_is; [exact A|symmetry; apply Hn|].
    cbn [fst prints flat_map print]. rewrite <- Hq, !atts_app, Hneg. destruct small; cbn [class_atts print_atts flat_map app]; same_text.
  - (* binary operator *)
    step A. pose proof A as (He & _ & Hr & _ & _). rewrite Hr, He, Hb. clear He Hr.
    set (bin := operand prev && spaced p && follows_operator (next_class es)).
    eapply gives_bind with (x := bin). apply gives_more with (Q := fun r1 => is_at r1 E (st_of k :: S) prev o es).
    { unfold bin. change (after_operand prev) with (operand prev). destruct (operand prev && spaced p); [|apply gives_ret; exact A].
      step A. eapply gives_ret_eq; [|exact A]. destruct (next_class es) as [[]|]; reflexivity. }
    clear A. intros r1 A. cbn beta in A. step A. step A. step A. step A. last A. eapply at_is; [exact A|symmetry; apply Hn|].
    cbn [fst prints flat_map print]. rewrite <- Hq, !atts_app, Hneg. destruct bin, small; cbn [class_atts small_class class print_atts flat_map app]; unfold close_str; same_text.
  - (* relation *)
    step A. step A. step A. step A. last A. eapply at_is; [exact A|symmetry; apply Hn|].
    cbn [fst prints flat_map print]. rewrite <- Hq, !atts_app, Hneg. destruct second, small; cbn [opt class_atts small_class class print_atts flat_map app]; same_text.
  - (* delimiter *)
    step A. step A.
    set (em := match size with Some z => f32_display (size_to_em z) ++ lit "em" | None => [] end).
    match type of A with is_at _ _ _ _ ?O _ => set (o1 := O) in * end.
    eapply gives_bind with (x := tt), gives_more with (Q := fun r1 => is_at r1 E (st_of k :: S) prev (o1 ++ match size with Some z => lit "minsize=" ++ q ++ em ++ q ++ attr (lit "maxsize") em | None => [] end) es).
    { unfold em. destruct size; [eapply gives_wr; exact A|apply gives_ret; rewrite app_nil_r; exact A]. }
    clear A. intros r2 A. cbn beta in A. step A. step A. step A. last A. eapply at_is; [exact A|symmetry; destruct ty; apply Hn|].
    cbn [fst prints flat_map print]. unfold o1. rewrite <- Hq, !atts_app, Hneg.
    assert (Hem : forall z, f32_display (size_to_em z) = delimiter_em z) by (intros []; vm_compute; reflexivity).
    destruct size as [z|]; unfold em; [rewrite Hem|]; clear; destruct ty; cbn [is_some bool_str yes class_atts print_atts flat_map print_att app]; unfold attr, quoted, q; same_text.
  - (* punctuation *)
    step A. step A. step A. step A. last A. eapply at_is; [exact A|symmetry; apply Hn|].
    cbn [fst prints flat_map print]. rewrite <- Hq, !atts_app, Hneg. cbn [class_atts print_atts flat_map app]; same_text.
Qed.

(** ** Rounds of the main loop *)

(** Rounds lead from [r] to [r1]; [reaches]: but for the closing of elements after the last. *)
Definition steps (r r1 : rst) : Prop := exists m, forall f, render_loop cfg (m + f) r = render_loop cfg f r1.
Definition reaches (r r1 : rst) : Prop := exists m, forall f,
  render_loop cfg (m + f) r = bind (close_complete (r_envs r1)) (fun _ => render_loop cfg f) r1.

Lemma steps_refl : forall r, steps r r.
Proof. intros r. exists O. reflexivity. Qed.
Lemma steps_reaches : forall a b c, steps a b -> reaches b c -> reaches a c.
Proof. intros a b c (m & H) (n & H1). exists (m + n)%nat. intros f. rewrite <- Nat.add_assoc, H. apply H1. Qed.
Lemma steps_trans : forall a b c, steps a b -> steps b c -> steps a c.
Proof. intros a b c (m & H) (n & H1). exists (m + n)%nat. intros f. rewrite <- Nat.add_assoc, H. apply H1. Qed.
Lemma reaches_steps : forall a b c, reaches a b -> close_complete (r_envs b) b = (Ok tt, c) -> steps a c.
Proof. intros a b c (m & H) H1. exists m. intros f. rewrite H. unfold bind. rewrite H1. reflexivity. Qed.
Lemma reaches_close : forall a b c, reaches a b -> close_complete (r_envs b) b = close_complete (r_envs c) c -> reaches a c.
Proof. intros a b c (m & H) H1. exists m. intros f. rewrite H. unfold bind. rewrite H1. reflexivity. Qed.

Lemma one_round : forall e es r E S p o (Q : rst -> Prop), is_at r E S p o (e :: es) ->
  (forall r0, is_at r0 E S p o es -> gives (write_event cfg (RIEvent e)) r0 tt Q) -> exists r1, reaches r r1 /\ Q r1.
Proof.
  intros e es r E S p o Q (H1 & H2 & H3 & H4 & H5) H.
  destruct (RenderTree.in_next_spec r (RIEvent e) (map RIEvent es) H5) as (m' & Hm & Hs).
  destruct (H (set_in m' r)) as (r1 & Hw & HQ). { unfold is_at. fields. auto. }
  exists r1. split; [|exact HQ]. exists 1%nat. intros f. cbn [Nat.add render_loop]. unfold bind at 1. rewrite Hm. unfold render_item, bind, get. rewrite Hw. reflexivity.
Qed.

(** ** Nodes side by side *)


Lemma first_is : forall t es, next_class (events t ++ es) = first t (next_class es).
Proof.
  fix IH 1. intros t es.
  assert (L : forall ts, (fix go l := match l with [] => True | t :: l' => (forall es, next_class (events t ++ es) = first t (next_class es)) /\ go l' end) ts ->
    next_class (flat_map events ts ++ es) = fold_right first (next_class es) ts).
  { clear. induction ts as [|t ts IH]; [reflexivity|]. intros [H H1]. cbn [flat_map fold_right]. rewrite <- app_assoc, H, IH; [reflexivity|exact H1]. }
  destruct t as [c|w h d|c|ls|cs body|l r cs body|g lines rows breaks|v ts|ty pos ts]; try reflexivity.
  - destruct v; try reflexivity. cbn [events app next_class atom_of first]. apply L. clear L. revert ts. fix go 1. intros [|t ts]; [exact I|]. split; [exact (IH t)|exact (go ts)].
  - cbn [events app next_class atom_of first]. apply L. clear L. revert ts. fix go 1. intros [|t ts]; [exact I|]. split; [exact (IH t)|exact (go ts)].
Qed.
Lemma firsts_are : forall ts es, next_class (all_events ts ++ es) = first_of ts (next_class es).
Proof. induction ts as [|t ts IH]; intros es; [reflexivity|]. unfold all_events. cbn [flat_map first_of fold_right]. rewrite <- app_assoc, first_is. fold (all_events ts). rewrite IH. reflexivity. Qed.

Notation drawn := (SpecDraw.draw block_of upright_of glyph_of).

Definition after_env (t : tree) (E : list env) : list env := match t with TContent c => marked c E | _ => E end.
Definition look_of (d : drawing) : look := snd (fst d).

(** The renderer writes the node. *)
Definition good (t : tree) : Prop := forall p k prev es r E S o, stands p E -> proper t = true -> Forall (fine None) (events t) ->
  is_at r E (st_of k :: S) prev o (events t ++ es) ->
  let d := drawn t p k prev (next_class es) in
  exists r1, reaches r r1 /\ is_at r1 (after_env t E) (st_of (look_of d) :: S) (snd d) (o ++ prints (xmls d)) es.

Lemma after_body : forall t E, stands PBody E -> after_env t E = E.
Proof. intros [[]| | | | | | | |] E H; try reflexivity. cbn in *. destruct E as [|[]]; try contradiction; reflexivity. Qed.
Lemma close_body : forall E r, stands PBody E -> close_complete E r = (Ok tt, r).
Proof. intros E r H. cbn in H. destruct E as [|[]]; try contradiction; reflexivity. Qed.

Lemma draw_all_cons : forall dr at_ i t ts k prev after, draw_all dr at_ i (t :: ts) k prev after =
  (let d := dr t (at_ i) k prev (first_of ts after) in
   let e := draw_all dr at_ (S i) ts (look_of d) (snd d) after in
   (xmls d ++ xmls e, look_of e, snd e)).
Proof.
  intros. change (draw_all dr at_ i (t :: ts) k prev after) with
    (let '(x, k1, p1) := dr t (at_ i) k prev (first_of ts after) in
     let '(xs, k2, p2) := draw_all dr at_ (S i) ts k1 p1 after in (x ++ xs, k2, p2)).
  unfold look_of, xmls. destruct (dr t (at_ i) k prev (first_of ts after)) as [[x k1] p1]. cbn [fst snd].
  destruct (draw_all dr at_ (S i) ts k1 p1 after) as [[xs k2] p2]. reflexivity.
Qed.

Lemma good_body : forall ts i k prev es r E S o, Forall good ts -> stands PBody E -> forallb proper ts = true -> Forall (fine None) (all_events ts) ->
  is_at r E (st_of k :: S) prev o (all_events ts ++ es) ->
  let d := draw_all drawn in_body i ts k prev (next_class es) in
  exists r1, steps r r1 /\ is_at r1 E (st_of (look_of d) :: S) (snd d) (o ++ prints (xmls d)) es.
Proof.
  intros ts i k prev es r E S o HG. revert i k prev r o.
  induction HG as [|t ts Ht HG IH]; intros i k prev r o Hp Hr Hf A.
  - exists r. split; [apply steps_refl|]. cbn in *. rewrite app_nil_r. exact A.
  - cbn [forallb] in Hr. apply andb_prop in Hr as [Hr1 Hr2]. unfold all_events in Hf, A. cbn [flat_map] in Hf, A. apply Forall_app in Hf as [Hf1 Hf2]. rewrite <- app_assoc in A.
    destruct (Ht PBody k prev _ r E S o Hp Hr1 Hf1 A) as (r1 & H1 & A1). rewrite firsts_are, (after_body _ _ Hp) in A1.
    pose proof A1 as (He & _ & _ & _ & _).
    assert (H2 : steps r r1). { apply (reaches_steps _ _ _ H1). rewrite He. apply close_body. exact Hp. }
    cbv zeta. rewrite draw_all_cons. cbv zeta. unfold in_body at 1 2 3.
    destruct (IH (Datatypes.S i) _ _ r1 _ Hp Hr2 Hf2 A1) as (r2 & H3 & A2). cbv zeta in A2.
    exists r2. split; [apply (steps_trans _ _ _ H2 H3)|]. unfold look_of, xmls in *. cbn [fst snd]. rewrite prints_app, app_assoc. exact A2.
Qed.

(** Children of a visual or a script, which is on the stack as [e n fn] while [n]
    more children follow the current one. *)
Section Children.
Variables (e : N -> bool -> env) (at_ : nat -> place) (arity : nat).
Hypothesis e_stands : forall i n fn E, N.of_nat arity = n + 1 + N.of_nat i -> stands (at_ i) (e n fn :: E).
Hypothesis e_close : forall n fn E r, close_complete (e (n + 1) fn :: E) r = (Ok tt, set_envs (e n fn :: E) r).
Hypothesis e_mark : forall t n fn E, after_env t (e n fn :: E) = e n (fn || is_function t) :: E.

Lemma good_children : forall ts i k prev es r E S o n fn, Forall good ts -> N.of_nat (length ts) = n + 1 -> N.of_nat arity = n + 1 + N.of_nat i ->
  forallb proper ts = true -> Forall (fine None) (all_events ts) ->
  is_at r (e n fn :: E) (st_of k :: S) prev o (all_events ts ++ es) ->
  let d := draw_all drawn at_ i ts k prev (next_class es) in
  exists r1, reaches r r1 /\ is_at r1 (e 0 (fn || existsb is_function ts) :: E) (st_of (look_of d) :: S) (snd d) (o ++ prints (xmls d)) es.
Proof.
  intros ts i k prev es r E S o n fn HG. revert i k prev r o n fn.
  induction HG as [|t ts Ht HG IH]; intros i k prev r o n fn Hl Ha Hr Hf A; [cbn in Hl; lia|].
  cbn [forallb] in Hr. apply andb_prop in Hr as [Hr1 Hr2]. unfold all_events in Hf, A. cbn [flat_map] in Hf, A. apply Forall_app in Hf as [Hf1 Hf2]. rewrite <- app_assoc in A.
  destruct (Ht (at_ i) k prev _ r _ S o (e_stands i n fn E Ha) Hr1 Hf1 A) as (r1 & H1 & A1). rewrite firsts_are, e_mark in A1.
  cbv zeta. rewrite draw_all_cons. cbv zeta. cbn [existsb]. rewrite orb_assoc.
  destruct ts as [|t1 ts].
  - cbn [length] in Hl. replace n with 0 in * by lia. exists r1. split; [exact H1|]. unfold look_of, xmls, all_events in *. cbn [flat_map existsb draw_all fst snd first_of fold_right app] in *. rewrite app_nil_r, orb_false_r. exact A1.
  - cbn [length] in Hl. assert (n = (n - 1) + 1) by lia. pose proof A1 as (He & Hrest). rewrite H in He.
    assert (H2 : steps r (set_envs (e (n - 1) (fn || is_function t) :: E) r1)). { apply (reaches_steps _ _ _ H1). rewrite He. apply e_close. }
    set (r2 := set_envs _ r1) in *.
    destruct (IH (Datatypes.S i) (look_of (drawn t (at_ i) k prev (first_of (t1 :: ts) (next_class es)))) (snd (drawn t (at_ i) k prev (first_of (t1 :: ts) (next_class es)))) r2
      (o ++ prints (xmls (drawn t (at_ i) k prev (first_of (t1 :: ts) (next_class es))))) (n - 1) (fn || is_function t)) as (r3 & H3 & A3); [cbn [length]; lia|lia|exact Hr2|exact Hf2| |].
    { unfold r2, is_at. fields. split; [reflexivity|exact Hrest]. }
    cbv zeta in A3. exists r3. split; [apply (steps_reaches _ _ _ H2 H3)|].
    unfold look_of, xmls in *. cbn [fst snd]. rewrite prints_app, app_assoc. exact A3.
Qed.
End Children.

Lemma visual_children : forall v ts k prev es r E S o, Forall good ts -> length ts = visual_arity v ->
  forallb proper ts = true -> Forall (fine None) (all_events ts) ->
  is_at r (ENVisual v (N.of_nat (visual_arity v) - 1) :: E) (st_of k :: S) prev o (all_events ts ++ es) ->
  let d := draw_all drawn (PVisual v) 0 ts k prev (next_class es) in
  exists r1, reaches r r1 /\ is_at r1 E (st_of (look_of d) :: S) (match v with VSqrt | VNegation => Some AtInner | _ => snd d end)
    (o ++ prints (xmls d) ++ close_str (visual_tag v)) es.
Proof.
  intros v ts k prev es r E S o HG Hl Hr Hf A. cbv zeta.
  destruct (good_children (fun n _ => ENVisual v n) (PVisual v) (visual_arity v)) with (ts := ts) (i := O) (k := k) (prev := prev) (es := es) (r := r) (E := E) (S := S) (o := o) (n := N.of_nat (visual_arity v) - 1) (fn := false)
    as (r1 & H1 & A1); auto.
  - intros i n fn E0 H. exists E0, n. split; [reflexivity|exact H].
  - intros n fn E0 r0. cbn [close_complete]. replace (n + 1 =? 0) with false by (symmetry; apply N.eqb_neq; lia). replace (n + 1 - 1) with n by lia. reflexivity.
  - intros [[]| | | | | | | |] n fn E0; reflexivity.
  - rewrite Hl. destruct v; reflexivity.
  - destruct v; reflexivity.
  - cbv zeta in A1. pose proof A1 as (He & _ & _ & _ & _).
    assert (X : gives (wr (close_str (visual_tag v)) ;; set_previous_atom AtInner ;; modify (set_envs E)) r1 tt
      (fun r2 => is_at r2 E (st_of (look_of (draw_all drawn (PVisual v) 0 ts k prev (next_class es))) :: S)
        (match v with VSqrt | VNegation => Some AtInner | _ => snd (draw_all drawn (PVisual v) 0 ts k prev (next_class es)) end)
        (o ++ prints (xmls (draw_all drawn (PVisual v) 0 ts k prev (next_class es))) ++ close_str (visual_tag v)) es)).
    { step A1. step A1. eapply gives_more; [eapply gives_set_envs; exact A1|]. clear. intros r2 A. cbn beta in A. eapply at_is; [exact A| |].
      - destruct v; reflexivity.
      - rewrite <- app_assoc. reflexivity. }
    destruct X as (r2 & X & A2). exists r2. split; [|exact A2]. apply (reaches_close _ _ _ H1). rewrite He. destruct A2 as (-> & _).
    cbn [close_complete N.eqb]. unfold bind in *. destruct (wr _ r1) as [[[]| | |] ra]; try discriminate. destruct (set_previous_atom _ ra) as [[[]| | |] rb]; try discriminate. rewrite X. reflexivity.
Qed.

Lemma script_children : forall ty ab ts k prev es r E S o, Forall good ts -> length ts = script_arity ty ->
  forallb proper ts = true -> Forall (fine None) (all_events ts) ->
  is_at r (ENScript ty ab (N.of_nat (script_arity ty) - 1) false :: E) (st_of k :: S) prev o (all_events ts ++ es) ->
  let d := draw_all drawn PScript 0 ts k prev (next_class es) in
  exists r1, reaches r r1 /\ is_at r1 E (st_of (look_of d) :: S) (snd d)
    (o ++ prints (xmls d) ++ close_str (script_tag ty ab) ++ prints (if existsb is_function ts then applied (next_class es) else [])) es.
Proof.
  intros ty ab ts k prev es r E S o HG Hl Hr Hf A. cbv zeta.
  destruct (good_children (fun n fn => ENScript ty ab n fn) PScript (script_arity ty)) with (ts := ts) (i := O) (k := k) (prev := prev) (es := es) (r := r) (E := E) (S := S) (o := o) (n := N.of_nat (script_arity ty) - 1) (fn := false)
    as (r1 & H1 & A1); auto.
  - intros i n fn E0 H. exists ty, ab, n, fn, E0. split; [reflexivity|exact H].
  - intros n fn E0 r0. cbn [close_complete]. replace (n + 1 =? 0) with false by (symmetry; apply N.eqb_neq; lia). replace (n + 1 - 1) with n by lia. reflexivity.
  - intros [[]| | | | | | | |] n fn E0; cbn; rewrite ?orb_false_r, ?orb_true_r; reflexivity.
  - rewrite Hl. destruct ty; reflexivity.
  - destruct ty; reflexivity.
  - cbv zeta in A1. pose proof A1 as (He & _ & _ & _ & _). rewrite orb_false_l in A1, He.
    set (d := draw_all drawn PScript 0 ts k prev (next_class es)) in *. set (fn := existsb is_function ts) in *.
    assert (X : gives (wr (close_str (script_tag ty ab)) ;; set_previous_atom AtInner ;; modify (set_envs E) ;; when fn fn_apply) r1 tt
      (fun r2 => is_at r2 E (st_of (look_of d) :: S) (snd d)
        (o ++ prints (xmls d) ++ close_str (script_tag ty ab) ++ prints (if fn then applied (next_class es) else [])) es)).
    { step A1. step A1. step A1. assert (Y : keeps_previous (ENScript ty ab 0 fn :: E) = true) by (destruct ty; reflexivity). rewrite Y in A1. unfold when. destruct fn.
      - eapply gives_more; [apply fn_apply_gives; exact A1|]. clear. intros r2 A. cbn beta in A. eapply at_is; [exact A|reflexivity|]. rewrite <- !app_assoc. reflexivity.
      - apply gives_ret. eapply at_is; [exact A1|reflexivity|]. cbn [prints flat_map]. rewrite app_nil_r, <- !app_assoc. reflexivity. }
    destruct X as (r2 & X & A2). exists r2. split; [|exact A2]. apply (reaches_close _ _ _ H1). rewrite He. destruct A2 as (-> & _).
    cbn [close_complete N.eqb]. unfold bind in *. destruct (wr _ r1) as [[[]| | |] ra]; try discriminate. destruct (set_previous_atom _ ra) as [[[]| | |] rb]; try discriminate.
    destruct (modify _ rb) as [[[]| | |] rc]; try discriminate. rewrite X. reflexivity.
Qed.

(** ** The nodes *)

Lemma good_content : forall c, good (TContent c).
Proof.
  intros c p k prev es r E S o Hp _ Hf A. cbn [events] in Hf. apply Forall_inv in Hf. destruct Hf as [Hv _]. cbn [events app] in A.
  destruct (one_round _ _ _ _ _ _ _ _ A (fun r0 A0 => write_content_is c false p k prev es r0 E S o Hp Hv A0)) as (r1 & H1 & A1).
  exists r1. split; [exact H1|]. cbn [SpecDraw.draw after_env]. destruct (draw_content upright_of glyph_of c false p k prev (next_class es)). exact A1.
Qed.

Lemma space_is : forall w h d, space_str w h d = print (draw_space w h d).
Proof.
  intros w h d. unfold space_str, draw_space. destruct w as [w|].
  - change (f32_negative (dvalue w)) with (below_zero (dvalue w)). destruct (below_zero (dvalue w)), h, d; cbn [opt app print print_atts flat_map print_att]; unfold attr, quoted, q; same_text.
  - destruct h, d; cbn [opt app print print_atts flat_map print_att]; unfold attr, quoted, q; same_text.
Qed.

Lemma good_space : forall w h d, good (TSpace w h d).
Proof.
  intros w h d p k prev es r E S o Hp _ Hf A. cbn [events app] in A.
  destruct (one_round _ _ _ _ _ _ _ (fun r1 => is_at r1 E (st_of k :: S) prev (o ++ prints [draw_space w h d]) es) A) as (r1 & H1 & A1).
  - intros r0 A0. cbn [write_event]. eapply gives_more; [apply gives_wr; exact A0|]. intros r1 A1. cbn beta in A1. cbn [prints flat_map]. rewrite app_nil_r, <- space_is. exact A1.
  - exists r1. split; [exact H1|exact A1].
Qed.

Lemma good_state : forall c, good (TState c).
Proof.
  intros c p k prev es r E S o Hp _ Hf A. cbn [events app] in A.
  destruct (one_round _ _ _ _ _ _ _ (fun r1 => is_at r1 E (st_of (changed k c) :: S) prev o es) A) as (r1 & H1 & A1).
  - intros r0 A0. cbn [write_event]. rewrite <- st_changed. apply gives_mod_state. exact A0.
  - exists r1. split; [exact H1|]. cbn. rewrite app_nil_r. exact A1.
Qed.

Lemma gives_recover : forall r E S p o es, is_at r E S p o es -> gives recover r tt (fun r1 => is_at r1 E S p o es).
Proof. intros r E S p o es (H1 & H2 & H3 & H4 & H5). eexists. split; [reflexivity|]. unfold is_at. fields. auto. Qed.

Lemma good_lost : forall ls, good (TLost ls).
Proof.
  intros c p k prev es r E S o Hp _ Hf A. cbn [events app] in A.
  destruct (one_round _ _ _ _ _ _ _ (fun r1 => is_at r1 E (st_of k :: S) prev o es) A) as (r1 & H1 & A1).
  - intros r0 A0. cbn [write_event]. apply gives_recover. exact A0.
  - exists r1. split; [exact H1|]. cbn. rewrite app_nil_r. exact A1.
Qed.

Lemma good_script : forall ty pos ts, Forall good ts -> good (TScript ty pos ts).
Proof.
  intros ty pos ts HG p k prev es r E S o Hp Hr Hf A. cbn [proper] in Hr. apply andb_prop in Hr as [Hl Hr]. apply Nat.eqb_eq in Hl.
  cbn [events app] in A, Hf. fold (all_events ts) in A, Hf. apply Forall_inv_tail in Hf as Hf1.
  set (ab := SpecDraw.above_below block_of k pos).
  destruct (one_round _ _ _ _ _ _ _ (fun r1 => is_at r1 (env_of_script ty ab :: E) (st_of k :: S) prev (o ++ [60] ++ script_tag ty ab ++ print_atts (look_atts false k) ++ [62]) (all_events ts ++ es)) A) as (r1 & H1 & A1).
  - intros r0 A0. cbn [write_event]. step A0. change (Mathml.above_below cfg (st_of k) pos) with ab. step A0. step A0. eapply gives_more; [apply gives_wr; exact A0|]. intros r9 A3. cbn beta in A3.
    eapply at_is; [exact A3|reflexivity|]. assert (X : in_script (env_of_script ty ab :: E) = false) by (destruct ty; reflexivity). rewrite X. cbn [class_atts]. rewrite app_nil_r. same_text.
  - pose proof A1 as (He & Hrest).
    assert (H2 : steps r (set_envs (ENScript ty ab (N.of_nat (script_arity ty) - 1) false :: E) r1)). { apply (reaches_steps _ _ _ H1). rewrite He. destruct ty; reflexivity. }
    set (r2 := set_envs _ r1) in *.
    destruct (script_children ty ab ts k prev es r2 E S (o ++ [60] ++ script_tag ty ab ++ print_atts (look_atts false k) ++ [62]) HG Hl Hr Hf1) as (r3 & H3 & A3).
    { unfold r2, is_at. fields. split; [reflexivity|exact Hrest]. }
    cbv zeta in A3. exists r3. split; [apply (steps_reaches _ _ _ H2 H3)|].
    change (SpecDraw.draw block_of upright_of glyph_of (TScript ty pos ts) p k prev (next_class es)) with
      (let '(x, k', prev') := draw_all drawn PScript 0 ts k prev (next_class es) in
       (Elem (script_name ty ab) (look_atts false k) x :: (if existsb SpecDraw.is_function ts then applied (next_class es) else []), k', prev')).
    cbv zeta. destruct (draw_all drawn PScript 0 ts k prev (next_class es)) as [[x k'] prev']. unfold look_of, xmls in *. cbn [fst snd after_env] in *.
    eapply at_is; [exact A3|reflexivity|]. rewrite prints_cons, print_elem. change (script_tag ty ab) with (script_name ty ab). unfold close_str. same_text.
Qed.

Lemma visual_run : forall v ts k prev es r E S o a, Forall good ts -> length ts = visual_arity v -> forallb proper ts = true -> Forall (fine None) (all_events ts) ->
  (exists r1, reaches r r1 /\ is_at r1 (env_of_visual v :: E) (st_of k :: S) prev (o ++ [60] ++ visual_tag v ++ print_atts a ++ [62]) (all_events ts ++ es)) ->
  let d := draw_all drawn (PVisual v) 0 ts k prev (next_class es) in
  exists r1, reaches r r1 /\ is_at r1 E (st_of (look_of d) :: S) (match v with VSqrt | VNegation => Some AtInner | _ => snd d end)
    (o ++ print (Elem (visual_name v) a (xmls d))) es.
Proof.
  intros v ts k prev es r E S o a HG Hl Hr Hf (r1 & H1 & A1). pose proof A1 as (He & Hrest).
  assert (H2 : steps r (set_envs (ENVisual v (N.of_nat (visual_arity v) - 1) :: E) r1)). { apply (reaches_steps _ _ _ H1). rewrite He. destruct v; reflexivity. }
  set (r2 := set_envs _ r1) in *.
  destruct (visual_children v ts k prev es r2 E S (o ++ [60] ++ visual_tag v ++ print_atts a ++ [62]) HG Hl Hr Hf) as (r3 & H3 & A3).
  { unfold r2, is_at. fields. split; [reflexivity|exact Hrest]. }
  cbv zeta in A3 |- *. exists r3. split; [apply (steps_reaches _ _ _ H2 H3)|]. eapply at_is; [exact A3|reflexivity|].
  rewrite print_elem. change (visual_name v) with (visual_tag v). unfold close_str. same_text.
Qed.

Lemma good_plain_visual : forall v ts, v <> VNegation -> Forall good ts -> good (TVisual v ts).
Proof.
  intros v ts Hv HG p k prev es r E S o Hp Hr Hf A. cbn [proper] in Hr. apply andb_prop in Hr as [Hl Hr]. apply Nat.eqb_eq in Hl.
  cbn [events app] in A, Hf. fold (all_events ts) in A, Hf. apply Forall_inv_tail in Hf as Hf1.
  set (a := look_atts false k ++ match v with VFraction (Some d) => [Att (lit "linethickness") (dim_display d)] | _ => [] end).
  destruct (visual_run v ts k prev es r E S o a HG Hl Hr Hf1) as (r3 & H3 & A3).
  - apply (one_round _ _ _ _ _ _ _ _ A). intros r0 A0. cbn [write_event]. unfold write_visual.
    replace (match v with VNegation => _ | _ => _ end) with
      (push_env (env_of_visual v) ;; open_tag (visual_tag v) None ;;
       (match v with VFraction (Some d) => wr (attr (lit "linethickness") (dim_display d)) | _ => ret tt end) ;; wr (lit ">")) by (destruct v; try reflexivity; congruence).
    step A0. step A0. eapply gives_bind with (x := tt). eapply gives_more with (Q := fun r1 => is_at r1 (env_of_visual v :: E) (st_of k :: S) prev (o ++ [60] ++ visual_tag v ++ print_atts a) (all_events ts ++ es)).
    { assert (X : in_script (env_of_visual v :: E) = false) by reflexivity. rewrite X in A0. unfold a. destruct v as [| |[d|]|]; try congruence.
      1,2,4: apply gives_ret; eapply at_is; [exact A0|reflexivity|]; cbn [class_atts]; reflexivity.
      eapply gives_more; [apply gives_wr; exact A0|]. intros r3 A3. cbn beta in A3. eapply at_is; [exact A3|reflexivity|]. rewrite !atts_app. cbn [class_atts print_atts flat_map print_att]. unfold attr, quoted, q. same_text. }
    clear A0. intros r3 A3. cbn beta in A3. eapply gives_more; [apply gives_wr; exact A3|]. intros r4 A4. cbn beta in A4. eapply at_is; [exact A4|reflexivity|]. same_text.
  - cbv zeta in A3 |- *. exists r3. split; [exact H3|].
    replace (SpecDraw.draw block_of upright_of glyph_of (TVisual v ts) p k prev (next_class es)) with
      (let '(x, k', prev') := draw_all drawn (PVisual v) 0 ts k prev (next_class es) in
       ([Elem (visual_name v) a x], k', match v with VSqrt => Some AtInner | _ => prev' end)) by (destruct v; try reflexivity; congruence).
    destruct (draw_all drawn (PVisual v) 0 ts k prev (next_class es)) as [[x k'] prev']. unfold look_of, xmls in *. cbn [fst snd after_env] in *.
    eapply at_is; [exact A3| |]; [destruct v; congruence || reflexivity|]. cbn [prints flat_map]. rewrite app_nil_r. reflexivity.
Qed.

(** What comes first in a stream. *)
Lemma gives_first : forall r E S p o e es, is_at r E S p o (e :: es) -> gives in_first r (Some (RIEvent e)) (fun r1 => is_at r1 E S p o (e :: es)).
Proof.
  intros r E S p o e es (H1 & H2 & H3 & H4 & H5). destruct (in_first_spec r) as (m' & Hm & Hs). rewrite H5 in Hm. eexists. split; [exact Hm|].
  unfold is_at. fields. rewrite <- H5. auto.
Qed.
Lemma gives_no_first : forall r E S p o, is_at r E S p o [] -> gives in_first r None (fun r1 => is_at r1 E S p o []).
Proof.
  intros r E S p o (H1 & H2 & H3 & H4 & H5). destruct (in_first_spec r) as (m' & Hm & Hs). rewrite H5 in Hm. eexists. split; [exact Hm|].
  unfold is_at. fields. rewrite <- H5. auto.
Qed.
Lemma gives_in_next : forall r E S p o e es, is_at r E S p o (e :: es) -> gives in_next r (Some (RIEvent e)) (fun r1 => is_at r1 E S p o es).
Proof.
  intros r E S p o e es (H1 & H2 & H3 & H4 & H5). destruct (in_next_spec r _ _ H5) as (m' & Hm & Hs). eexists. split; [exact Hm|].
  unfold is_at. fields. auto.
Qed.

Lemma events_head : forall t, exists e es, events t = e :: es.
Proof. destruct t; eexists; eexists; reflexivity. Qed.

Lemma next_content : forall c es, next_class (EvContent c :: es) = Some (class_of c).
Proof. reflexivity. Qed.

Lemma good_negation : forall ts, Forall good ts -> good (TVisual VNegation ts).
Proof.
  intros ts HG p k prev es r E S o Hp Hr Hf A. cbn [proper] in Hr. apply andb_prop in Hr as [Hl Hr]. apply Nat.eqb_eq in Hl.
  cbn [events app] in A, Hf. fold (all_events ts) in A, Hf. apply Forall_inv_tail in Hf as Hf1.
  destruct ts as [|t [|t1 ts]]; try discriminate Hl.
  assert (Hcase : (exists c, t = TContent c /\ can_slash c = true) \/ forall es', exists e es1, all_events [t] ++ es' = e :: es1 /\
    (forall (m : R unit) (f : content -> R unit), match e with EvContent c => if negatable c then f c else m | _ => m end = m)).
  { destruct t as [c|w h d|c|ls|cs body|l0 r0 cs body|g lines rows breaks|v ts|ty pos ts]; try (right; intros es'; eexists; eexists; split; [reflexivity|reflexivity]).
    destruct (can_slash c) eqn:Ec; [left; eauto|]. right. intros es'. eexists. eexists. split; [reflexivity|]. intros m f. cbv beta iota. change (negatable c) with (can_slash c). rewrite Ec. reflexivity. }
  destruct Hcase as [(c & -> & Hc)|Hcase].
  - cbn in A. cbn in Hf1. apply Forall_inv in Hf1 as [Hv _]. set (d := draw_content upright_of glyph_of c true p k prev (Some (class_of c))).
    destruct (one_round _ _ _ _ _ _ _ (fun r1 => is_at r1 E (st_of k :: S) (snd d) (o ++ prints (fst d)) es) A) as (r1 & H1 & A1).
    + intros r0 A0. cbn [write_event write_visual]. stepw gives_first A0. cbn iota. change (negatable c) with (can_slash c). rewrite Hc.
      assert (X := write_content_is c true p k prev _ _ E S o Hp Hv A0). cbv zeta in X. rewrite next_content in X. fold d in X.
      eapply gives_bind. eapply gives_more; [exact X|]. clear A0 X. intros r2 A2. cbn beta in A2. stepw gives_in_next A2. apply gives_ret.
      replace (marked c E) with E in A2 by (destruct c; try reflexivity; discriminate Hc). exact A2.
    + exists r1. split; [exact H1|].
      change (SpecDraw.draw block_of upright_of glyph_of (TVisual VNegation [TContent c]) p k prev (next_class es)) with
        (if can_slash c then let '(x, prev') := draw_content upright_of glyph_of c true p k prev (Some (class_of c)) in (x, k, prev')
         else let '(x, _) := draw_content upright_of glyph_of c false (PVisual VNegation 0) k prev (next_class es) in
              ([Elem (lit "mrow") (look_atts (as_script p) k ++ class (lit "mop-negated")) x], k, Some AtInner)).
      rewrite Hc. fold d. cbv zeta. destruct d. exact A1.
  - destruct (visual_run VNegation [t] k prev es r E S o (look_atts (as_script p) k ++ class (lit "mop-negated")) HG Hl Hr Hf1) as (r3 & H3 & A3).
    + apply (one_round _ _ _ _ _ _ _ _ A). intros r0 A0. destruct (Hcase es) as (e & es1 & He & Hm). cbn [write_event write_visual]. rewrite He in A0 |- *. stepw gives_first A0.
      cbn iota. rewrite Hm. clear Hm. step A0. step A0. eapply gives_more; [apply gives_push_env; exact A0|]. clear A0. intros r9 A3. cbn beta in A3.
      eapply at_is; [exact A3|reflexivity|]. rewrite (stands_script p E Hp). same_text.
    + cbv zeta in A3 |- *. exists r3. split; [exact H3|].
      replace (SpecDraw.draw block_of upright_of glyph_of (TVisual VNegation [t]) p k prev (next_class es)) with
        (let '(x, k', _) := draw_all drawn (PVisual VNegation) 0 [t] k prev (next_class es) in
         ([Elem (lit "mrow") (look_atts (as_script p) k ++ class (lit "mop-negated")) x], k', Some AtInner)).
      { destruct (draw_all drawn (PVisual VNegation) 0 [t] k prev (next_class es)) as [[x k'] prev']. unfold look_of, xmls in *. cbn [fst snd after_env] in *.
        eapply at_is; [exact A3|reflexivity|]. cbn [prints flat_map]. rewrite app_nil_r. reflexivity. }
      destruct t; try reflexivity. destruct (Hcase []) as (e & es1 & He & Hm). injection He as <- <-.
      cbn [SpecDraw.draw draw_all first_of fold_right]. replace (can_slash c) with false.
      * destruct (draw_content upright_of glyph_of c false (PVisual VNegation 0) k prev (next_class es)). rewrite app_nil_r. reflexivity.
      * symmetry. change (can_slash c) with (negatable c). destruct (negatable c) eqn:En; [|reflexivity]. exfalso. specialize (Hm (ret tt) (fun _ => recover)). assert (X := f_equal (fun m => r_err (snd (m (new_writer [] [])))) Hm). discriminate X.
Qed.

(** ** Groups *)

Definition not_change (es : list event) : bool := match es with EvState _ :: _ => false | _ => true end.

Lemma gives_changes : forall cs fuel k es r E S p o, not_change es = true -> (length cs < fuel)%nat ->
  is_at r E (st_of k :: S) p o (map EvState cs ++ es) ->
  gives (leading_changes fuel) r tt (fun r1 => is_at r1 E (st_of (fold_left changed cs k) :: S) p o es).
Proof.
  induction cs as [|c cs IH]; intros [|fuel] k es r E S p o Hn Hl A; try (cbn in Hl; lia).
  - cbn [map app] in A. cbn [leading_changes fold_left]. destruct es as [|e es].
    + stepw gives_no_first A. apply gives_ret. exact A.
    + stepw gives_first A. destruct e; try discriminate Hn; apply gives_ret; exact A.
  - cbn [map app] in A. cbn [leading_changes fold_left]. stepw gives_first A. unfold handle_state_change. step A. rewrite st_changed in A. stepw gives_in_next A.
    apply IH; [exact Hn|cbn in Hl; lia|exact A].
Qed.

Lemma gives_length : forall r E S p o es, is_at r E S p o es -> gives in_length r (length es) (fun r1 => is_at r1 E S p o es).
Proof.
  intros r E S p o es A. exists r. split; [|exact A]. rewrite in_length_spec. destruct A as (_ & _ & _ & _ & ->). rewrite map_length. reflexivity.
Qed.

Lemma gives_fence : forall c k r E S p o es, is_at r E (st_of k :: S) p o es ->
  gives (fence c) r tt (fun r1 => is_at r1 E (st_of k :: S) p (o ++ prints (draw_fence (in_script E) k c)) es).
Proof.
  intros [c|] k r E S p o es A; cbn [fence].
  - step A. step A. step A. eapply gives_more; [apply gives_wr; exact A|]. intros r3 A3. cbn beta in A3. eapply at_is; [exact A3|reflexivity|].
    cbn [draw_fence opt prints flat_map print]. rewrite !atts_app. cbn [class_atts print_atts flat_map app]. same_text.
  - apply gives_ret. cbn. rewrite app_nil_r. exact A.
Qed.

Lemma not_change_body : forall body es, starts_changing body = false -> not_change (all_events body ++ EvEnd :: es) = true.
Proof. intros [|t ts] es H; [reflexivity|]. destruct t; try reflexivity. discriminate H. Qed.

(** The end of a group: its state is dropped, and what is written at the end is [x]. *)
Lemma end_run : forall g s r E S p o es p' x, is_at r (ENGroup g :: E) (s :: S) p o (EvEnd :: es) ->
  (forall r0, is_at r0 E S (Some AtInner) o es -> gives (close_group g) r0 tt (fun r1 => is_at r1 E S p' (o ++ x) es)) ->
  exists r1, reaches r r1 /\ is_at r1 E S p' (o ++ x) es.
Proof.
  intros g s r E S p o es p' x A H. apply (one_round _ _ _ _ _ _ _ _ A). clear A. intros r0 A. cbn [write_event]. unfold end_group.
  eapply gives_bind, gives_get. pose proof A as (-> & -> & _). step A.
  eapply gives_bind with (x := tt). apply gives_more with (Q := fun r1 => is_at r1 E S p o es).
  { destruct A as (H1 & H2 & H3 & H4 & H5). eexists. split; [reflexivity|]. unfold is_at. fields. auto. }
  clear A. intros r2 A. cbn beta in A. step A. apply H. exact A.
Qed.

(** The opening of a group that is not a table, before the group is pushed. *)
Lemma begin_plain : forall cs g k prev es r E S o p (Q : rst -> Prop), is_math_env g = false -> stands p E -> not_change es = true ->
  is_at r E (st_of k :: S) prev o (map EvState cs ++ es) ->
  (forall r1, is_at r1 E (st_of (font_only (fold_left changed cs k)) :: st_of k :: S) None
    (o ++ [60] ++ lit "mrow" ++ print_atts (look_atts (as_script p) (fold_left changed cs k)) ++ [62]) es ->
    gives (bind (open_group g) (fun e => push_env (ENGroup e))) r1 tt Q) ->
  gives (begin_group g) r tt Q.
Proof.
  intros cs g k prev es r E S o p Q Hg Hp Hn A H. unfold begin_group. step A. rewrite Hg.
  eapply gives_bind with (x := tt). eapply gives_more; [|exact H].
  step A. step A. stepw gives_length A.
  eapply gives_bind, gives_more; [apply (gives_changes cs _ k es _ E (st_of k :: S) None o Hn); [|exact A]; rewrite app_length, map_length; lia|].
  clear A. intros r8 A. cbn beta in A. step A. step A. eapply gives_more; [eapply gives_mod_state; exact A|]. clear A. intros r9 A. cbn beta in A.
  eapply at_is; [exact A|reflexivity|]. rewrite (stands_script p E Hp). cbn [class_atts]. rewrite app_nil_r. same_text.
Qed.

Lemma good_group : forall cs body, Forall good body -> good (TGroup cs body).
Proof.
  intros cs body HG p k prev es r E S o Hp Hr Hf A. cbn [proper] in Hr. apply andb_prop in Hr as [Hl Hr]. apply negb_true_iff in Hl.
  cbn [events app] in A, Hf. fold (all_events body) in A, Hf. apply Forall_inv_tail in Hf as Hf1. apply Forall_app in Hf1 as [_ Hf1]. apply Forall_app in Hf1 as [Hf1 _].
  rewrite <- !app_assoc in A. cbn [app] in A. set (k' := fold_left changed cs k).
  destruct (one_round _ _ _ _ _ _ _ (fun r1 => is_at r1 (ENGroup EGNormal :: E) (st_of (font_only k') :: st_of k :: S) None
    (o ++ [60] ++ lit "mrow" ++ print_atts (look_atts (as_script p) k') ++ [62]) (all_events body ++ EvEnd :: es)) A) as (r1 & H1 & A1).
  - clear A. intros r0 A. cbn [write_event]. apply (begin_plain cs GNormal k prev (all_events body ++ EvEnd :: es) r0 E S o p); [reflexivity|exact Hp|apply not_change_body; exact Hl|exact A|].
    clear A. intros r2 A. cbn [open_group]. step A. apply gives_push_env. exact A.
  - assert (H2 : steps r r1). { apply (reaches_steps _ _ _ H1). destruct A1 as (-> & _). reflexivity. }
    destruct (good_body body 0 (font_only k') None (EvEnd :: es) r1 (ENGroup EGNormal :: E) (st_of k :: S) _ HG I Hr Hf1 A1) as (r3 & H3 & A3). cbv zeta in A3. cbn [next_class atom_of] in A3.
    set (d := draw_all drawn in_body 0 body (font_only k') None None) in *.
    destruct (end_run _ _ _ _ _ _ _ _ (Some AtInner) (lit "</mrow>") A3) as (r4 & H4 & A4). { intros r0 A0. cbn [close_group]. apply gives_wr. exact A0. }
    exists r4. split; [apply (steps_reaches _ _ _ H2), (steps_reaches _ _ _ H3), H4|].
    change (SpecDraw.draw block_of upright_of glyph_of (TGroup cs body) p k prev (next_class es)) with
      ([Elem (lit "mrow") (look_atts (as_script p) k') (xmls d)], k, Some AtInner).
    unfold look_of, xmls in *. cbn [fst snd after_env]. eapply at_is; [exact A4|reflexivity|]. rewrite prints_cons, print_elem. cbn [prints flat_map]. rewrite app_nil_r. same_text.
Qed.

Lemma good_fenced : forall l rt cs body, Forall good body -> good (TFenced l rt cs body).
Proof.
  intros l rt cs body HG p k prev es r E S o Hp Hr Hf A. cbn [proper] in Hr. apply andb_prop in Hr as [Hl Hr]. apply negb_true_iff in Hl.
  cbn [events app] in A, Hf. fold (all_events body) in A, Hf. apply Forall_inv_tail in Hf as Hf1. apply Forall_app in Hf1 as [_ Hf1]. apply Forall_app in Hf1 as [Hf1 _].
  rewrite <- !app_assoc in A. cbn [app] in A. set (k' := fold_left changed cs k).
  destruct (one_round _ _ _ _ _ _ _ (fun r1 => is_at r1 (ENGroup (EGLeftRight rt) :: E) (st_of (font_only k') :: st_of k :: S) (Some AtOpen)
    (o ++ [60] ++ lit "mrow" ++ print_atts (look_atts (as_script p) k') ++ [62] ++ prints (draw_fence (as_script p) (font_only k') l)) (all_events body ++ EvEnd :: es)) A) as (r1 & H1 & A1).
  - clear A. intros r0 A. cbn [write_event]. apply (begin_plain cs (GLeftRight l rt) k prev (all_events body ++ EvEnd :: es) r0 E S o p); [reflexivity|exact Hp|apply not_change_body; exact Hl|exact A|].
    clear A. intros r2 A. cbn [open_group]. apply gives_bind with (x := EGLeftRight rt). stepw gives_fence A. step A. apply gives_ret. eapply gives_more; [apply gives_push_env; exact A|].
    clear A. intros r9 A. cbn beta in A. eapply at_is; [exact A|reflexivity|]. rewrite (stands_script p E Hp). same_text.
  - assert (H2 : steps r r1). { apply (reaches_steps _ _ _ H1). destruct A1 as (-> & _). reflexivity. }
    destruct (good_body body 0 (font_only k') (Some AtOpen) (EvEnd :: es) r1 (ENGroup (EGLeftRight rt) :: E) (st_of k :: S) _ HG I Hr Hf1 A1) as (r3 & H3 & A3). cbv zeta in A3. cbn [next_class atom_of] in A3.
    set (d := draw_all drawn in_body 0 body (font_only k') (Some AtOpen) None) in *.
    destruct (end_run _ _ _ _ _ _ _ _ (Some AtClose) (prints (draw_fence (as_script p) k rt) ++ lit "</mrow>") A3) as (r4 & H4 & A4).
    { intros r0 A0. cbn [close_group]. stepw gives_fence A0. step A0. eapply gives_more; [apply gives_wr; exact A0|]. clear A0. intros r9 A9. cbn beta in A9. eapply at_is; [exact A9|reflexivity|]. rewrite (stands_script p E Hp). same_text. }
    exists r4. split; [apply (steps_reaches _ _ _ H2), (steps_reaches _ _ _ H3), H4|].
    change (SpecDraw.draw block_of upright_of glyph_of (TFenced l rt cs body) p k prev (next_class es)) with
      ([Elem (lit "mrow") (look_atts (as_script p) k') (draw_fence (as_script p) (font_only k') l ++ xmls d ++ draw_fence (as_script p) k rt)], k, Some AtClose).
    unfold look_of, xmls in *. cbn [fst snd after_env]. eapply at_is; [exact A4|reflexivity|]. rewrite prints_cons, print_elem, !prints_app. cbn [prints flat_map]. rewrite app_nil_r. same_text.
Qed.

End Config.
