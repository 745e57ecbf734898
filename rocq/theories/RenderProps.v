(** * RenderProps: the lemmas behind the properties of the renderer. *)

From Coq Require Import List NArith ZArith Bool Lia SpecFloat.
From Verif Require Import Base Float32 Event Tables Prim FontTable Spans DisplayFacts SpecLex PrimFacts Mathml SpecEvent SpecStream SpecXml SpecFont
  XmlFacts RenderFacts RenderTree RenderDoc RenderMore.
Import ListNotations.
Open Scope N_scope.
Open Scope sm_scope.

(** ** Checking the conditions by computation *)

Definition f32_okb (x : f32) : bool :=
  match x with S754_finite _ m e => (Zpos m <=? 2 ^ 24)%Z && (e <=? 104)%Z | _ => true end.
Definition dim_okb (d : option dimension) : bool := match d with Some d => f32_okb (dvalue d) | None => true end.
Definition content_validb (c : content) : bool :=
  match c with
  | CText s | CNumber s | CFunction s => forallb valid_char s
  | COrdinary c _ | CLargeOp c _ | CBinaryOp c _ | CDelimiter c _ _ | CPunctuation c => valid_char c
  | CRelation c d _ => valid_char c && match d with Some d => valid_char d | None => true end
  end.
Definition fineb (st : option bool) (e : event) : bool :=
  match e with
  | EvContent c => content_validb c && content_clean st c
  | EvBegin (GLeftRight l r) => delim_clean st l && delim_clean st r
  | EvBegin (GArray cols) => existsb is_col cols
  | EvBegin (GAlignat n _ | GAlignedat n) => n <=? 32767
  | EvVisual (VFraction d) => dim_okb d
  | EvSpace w h d => (match st with None => true | _ => match w with Some _ => true | None => false end end) && dim_okb w && dim_okb h && dim_okb d
  | EvFlow (EFNewLine d _) => dim_okb d
  | _ => true
  end.

Lemma f32_okb_ok : forall x, f32_okb x = true -> f32_ok x.
Proof. intros [s|s| |s m e] H; try exact Logic.I.
  apply andb_prop in H as [H1 H2]. apply Z.leb_le in H1, H2. exact (conj H1 H2). Qed.
Lemma dim_okb_ok : forall d, dim_okb d = true -> dim_ok d.
Proof. intros [d|] H; [now apply f32_okb_ok|exact Logic.I]. Qed.
Lemma valid_strb : forall s, forallb valid_char s = true -> valid_str s.
Proof. intros s H. apply Forall_forall. intros x Hx. exact (proj1 (forallb_forall _ _) H x Hx). Qed.
Lemma content_validb_ok : forall c, content_validb c = true -> content_valid c.
Proof.
  intros [] H; cbn in *; try exact H; try (now apply valid_strb). apply andb_prop in H as [H1 H2]. split; [exact H1|].
  match goal with |- match ?d with _ => _ end => destruct d; [exact H2|exact Logic.I] end.
Qed.
Lemma fineb_ok : forall st e, fineb st e = true -> fine st e.
Proof.
  intros st e H. destruct e as [c|g| |v|ty p|w h d|c|f]; cbn [fineb fine] in *; try exact Logic.I.
  - apply andb_prop in H as [H1 H2]. split; [now apply content_validb_ok|exact H2].
  - destruct g; try exact Logic.I; try (now apply N.leb_le); [now apply andb_prop|exact H].
  - destruct v; try exact Logic.I. now apply dim_okb_ok.
  - apply andb_prop in H as [H H4]. apply andb_prop in H as [H H3]. apply andb_prop in H as [H1 H2].
    split; [|repeat split; now apply dim_okb_ok]. destruct st; [right; destruct w; discriminate|now left].
  - destruct f; try exact Logic.I. now apply dim_okb_ok.
Qed.
Lemma fine_test : forall st l, forallb (fineb st) l = true -> Forall (fine st) l.
Proof. intros st l H. apply Forall_forall. intros x Hx. apply fineb_ok. exact (proj1 (forallb_forall _ _) H x Hx). Qed.
Lemma well_formed_test : forall l, match feeds start_frames l with Some [Body _ None] => true | _ => false end = true -> well_formed l.
Proof.
  intros l H. unfold well_formed. destruct (feeds start_frames l) as [[|[b [?|]|?] [|? ?]]|]; try discriminate. now exists b.
Qed.

(** ** Documents *)

Lemma push_total : forall cfg string es, well_formed es -> Forall (fine None) es ->
  exists out, push_mathml cfg string (map RIEvent es) = Ok (string ++ out)%list.
Proof.
  intros cfg string es H1 H2.
  destruct (push_spec (mkRopts None (mkOpts false false)) cfg string es H1 H2) as (out & l & E & _); [discriminate|reflexivity|].
  now exists out.
Qed.

Lemma push_document : forall st cfg es, well_formed es -> Forall (fine (Some st)) es -> note_clean (Some st) cfg = true ->
  exists out, push_mathml cfg [] (map RIEvent es) = Ok out /\ document (mkOpts st false) out.
Proof.
  intros st cfg es H1 H2 H3.
  destruct (push_spec (mkRopts (Some st) (mkOpts st false)) cfg [] es H1 H2) as (out & l & E & R & B); [discriminate|exact H3|].
  exists out. split; [exact E|]. exists (math_atts cfg), l. split; [exact R|exact B].
Qed.

Lemma push_document_strict : forall st cfg es, well_formed es -> Forall (fine (Some st)) es ->
  note_clean (Some st) cfg = true -> steady start_frames es = true ->
  exists out, push_mathml cfg [] (map RIEvent es) = Ok out /\ document (mkOpts st true) out.
Proof.
  intros st cfg es H1 H2 H3 H4.
  destruct (push_spec (mkRopts (Some st) (mkOpts st true)) cfg [] es H1 H2) as (out & l & E & R & B); [intros _; exact H4|exact H3|].
  exists out. split; [exact E|]. exists (math_atts cfg), l. split; [exact R|exact B].
Qed.

Lemma push_wrapper : forall cfg string items out, push_mathml cfg string items = Ok out ->
  exists mid, out = (string
    ++ lit "<math display=""" ++ (match c_display cfg with DMInline => lit "inline" | DMBlock => lit "block" end) ++ lit """"
    ++ (if c_xml cfg then lit " xmlns=""http://www.w3.org/1998/Math/MathML""" else []) ++ lit ">"
    ++ (match c_annotation cfg with Some _ => lit "<semantics><mrow>" | None => [] end)
    ++ mid
    ++ (match c_annotation cfg with
        | Some a => lit "</mrow><annotation encoding=""application/x-tex"">" ++ a ++ lit "</annotation></semantics>"
        | None => []
        end)
    ++ lit "</math>")%list.
Proof.
  intros cfg string items out H. apply push_frame in H as (mid & ->). exists mid. unfold prologue, epilogue.
  destruct (c_display cfg), (c_xml cfg), (c_annotation cfg); cbn; reflexivity.
Qed.

Lemma peek_all : forall A (l : list A) us,
  spec_all A us l 0 = (fst (use_all A us (mkPeek [] l)), stream (snd (use_all A us (mkPeek [] l)))).
Proof. intros A l us. exact (uses_spec A us (mkPeek [] l)). Qed.

Lemma map_char_valid : forall f c, valid_char c = true -> exists d, map_char f c = Ok d /\ valid_char d = true.
Proof.
  intros f c H. pose proof (map_char_ok f c H) as E. eexists. split; [exact E|]. unfold map_char in E.
  destruct (valid_char (c + font_offset c (font_ranges f))); [reflexivity|discriminate].
Qed.

(** ** Styles *)

Definition letter (c : char) : option nat :=
  if (97 <=? c) && (c <=? 122) then Some 0%nat
  else if (65 <=? c) && (c <=? 90) then Some 1%nat
  else if (945 <=? c) && (c <=? 969) then Some 2%nat
  else if (913 <=? c) && (c <=? 937) && negb (c =? 930) then Some 3%nat
  else None.
Definition style_table (s : math_style) : list bool :=
  match s with
  | MSTeX => [true; true; true; false]
  | MSIso => [true; true; true; true]
  | MSFrench => [true; false; false; false]
  | MSUpright => [false; false; false; false]
  end.

(** The characters that a style keeps upright. *)
Definition stands_upright (s : math_style) (c : char) : Prop :=
  match s with
  | MSTeX => In c capitals /\ ~ (65 <= c <= 90)
  | MSIso => False
  | MSFrench => ~ (97 <= c <= 122)
  | MSUpright => True
  end.

Lemma upright_table : forallb (fun s => forallb (fun c =>
  match letter c with Some k => Bool.eqb (should_be_upright s c) (negb (nth k (style_table s) true)) | None => true end) (upto (N.to_nat 1000) 0))
  [MSTeX; MSIso; MSFrench; MSUpright] = true.
Proof. vm_compute. reflexivity. Qed.

Lemma ordinary_written : forall cfg c b, should_be_upright (c_style cfg) c = negb b -> exists out,
  push_mathml cfg [] [RIEvent (EvContent (COrdinary c false))] = Ok out /\
  contains (if b then lit "<mi>" ++ [c] ++ lit "</mi>" else lit "<mi mathvariant=""normal"">" ++ [c] ++ lit "</mi>")%list out.
Proof.
  intros cfg c b U.
  exists (prologue cfg ++ (if b then lit "<mi>" ++ [c] ++ lit "</mi>" else lit "<mi mathvariant=""normal"">" ++ [c] ++ lit "</mi>") ++ epilogue cfg)%list.
  split; [|exists (prologue cfg), (epilogue cfg); reflexivity].
  unfold push_mathml, write, new_writer. cbn [map]. generalize (prologue cfg), (epilogue cfg). intros p e.
  assert (E0 : forall r, r_envs r = [] -> r_states r = [default_state] ->
    write_event cfg (RIEvent (EvContent (COrdinary c false))) r =
    (Ok tt, set_prev (Some AtOrd) (set_out (r_out r ++ if b then lit "<mi>" ++ [c] ++ lit "</mi>" else lit "<mi mathvariant=""normal"">" ++ [c] ++ lit "</mi>")%list r))).
  { intros [i o en st pv er] H1 H2. cbn in H1, H2. subst en st. cbn [write_event write_content]. rewrite U.
    destruct b; cbv -[lit app]; rewrite ?app_nil_r, <- ?app_assoc; reflexivity. }
  unfold bind at 1. unfold wr at 1, modify at 1. unfold bind at 1. rewrite in_length_spec.
  cbn [stream r_in set_out peeked iter app length]. cbn [render_loop]. unfold bind at 1. unfold bind at 1.
  unfold in_next at 1. cbn [mp_next r_in set_out peeked iter]. unfold render_item at 1. unfold bind at 1 2. rewrite E0 by reflexivity.
  destruct b; cbv -[lit app]; rewrite ?app_nil_r, <- ?app_assoc; reflexivity.
Qed.

Lemma style_written : forall cfg c k, letter c = Some k -> exists out,
  push_mathml cfg [] [RIEvent (EvContent (COrdinary c false))] = Ok out /\
  contains (if nth k (style_table (c_style cfg)) true then lit "<mi>" ++ [c] ++ lit "</mi>"
            else lit "<mi mathvariant=""normal"">" ++ [c] ++ lit "</mi>")%list out.
Proof.
  intros cfg c k H.
  assert (Hc : c < 1000).
  { unfold letter in H. destruct (N.lt_ge_cases c 1000) as [L|L]; [exact L|].
    assert (B : forall a, a < 1000 -> (c <=? a) = false) by (intros a Ha; apply N.leb_gt; lia).
    rewrite !B, !andb_false_r in H by reflexivity. discriminate. }
  assert (U : should_be_upright (c_style cfg) c = negb (nth k (style_table (c_style cfg)) true)).
  { assert (T : In (c_style cfg) [MSTeX; MSIso; MSFrench; MSUpright]) by (destruct (c_style cfg); cbn; tauto).
    pose proof (proj1 (forallb_forall _ _) upright_table _ T) as T1. cbv beta in T1.
    pose proof (proj1 (forallb_forall _ _) T1 c (upto_in (N.to_nat 1000) 0 c ltac:(rewrite N2Nat.id; lia))) as T2. cbv beta in T2. rewrite H in T2. now apply Bool.eqb_prop. }
  apply ordinary_written. exact U.
Qed.

(** Every character, not only the letters. *)
Lemma in_ranges_all : forall l c, in_ranges c l = true <-> exists a b, In (a, b) l /\ a <= c <= b.
Proof.
  induction l as [|[a b] l IH]; intros c; cbn [in_ranges].
  - split; [discriminate|]. intros (? & ? & [] & _).
  - rewrite orb_true_iff, andb_true_iff, !N.leb_le, IH. split.
    + intros [H|(x & y & H1 & H2)]; [exists a, b; split; [left; reflexivity|exact H]|exists x, y; split; [right; exact H1|exact H2]].
    + intros (x & y & [E|H1] & H2); [injection E as <- <-; left; exact H2|right; exists x, y; auto].
Qed.

Definition each (p : N * N) : list N := upto (N.to_nat (snd p + 1 - fst p)) (fst p).

Lemma each_spec : forall p c, In c (each p) <-> fst p <= c <= snd p.
Proof.
  assert (H : forall n i c, In c (upto n i) <-> i <= c < i + N.of_nat n).
  { induction n as [|n IH]; intros i c; cbn [upto In]; [lia|]. rewrite IH. lia. }
  intros [a b] c. unfold each. cbn [fst snd]. rewrite H, N2Nat.id. lia.
Qed.

Lemma capitals_same : flat_map each uppercase_ranges = capitals.
Proof. vm_compute. reflexivity. Qed.

Lemma uppercase_capital : forall c, in_ranges c uppercase_ranges = true <-> In c capitals.
Proof.
  intros c. rewrite in_ranges_all, <- capitals_same, in_flat_map. split.
  - intros (a & b & H1 & H2). exists (a, b). split; [exact H1|]. apply each_spec. exact H2.
  - intros ([a b] & H1 & H2). exists a, b. split; [exact H1|]. apply each_spec in H2. exact H2.
Qed.

Lemma style_every : forall cfg c, exists out, exists b : bool, push_mathml cfg [] [RIEvent (EvContent (COrdinary c false))] = Ok out /\
  contains (if b then lit "<mi>" ++ [c] ++ lit "</mi>" else lit "<mi mathvariant=""normal"">" ++ [c] ++ lit "</mi>")%list out /\
  (b = false <-> stands_upright (c_style cfg) c).
Proof.
  intros cfg c. destruct (ordinary_written cfg c (negb (should_be_upright (c_style cfg) c))) as (out & H1 & H2); [now rewrite negb_involutive|].
  exists out, (negb (should_be_upright (c_style cfg) c)). split; [exact H1|]. split; [exact H2|]. clear H1 H2.
  rewrite negb_false_iff. unfold should_be_upright, stands_upright. destruct (c_style cfg).
  - rewrite andb_true_iff, uppercase_capital, negb_true_iff, andb_false_iff, !N.leb_gt. split; intros [H1 H2]; split; try exact H1; lia.
  - split; [discriminate|tauto].
  - rewrite negb_true_iff, andb_false_iff, !N.leb_gt. lia.
  - tauto.
Qed.

(** ** Colours *)

Definition property (t : color_target) : str :=
  match t with CTText => lit "color: " | CTBorder => lit "border: 0.06em solid " | CTBackground => lit "background-color: " end.

Lemma colour_written : forall cfg t r g b, r < 256 -> g < 256 -> b < 256 -> exists out pre post,
  push_mathml cfg [] [RIEvent (EvState (SCColor (r, g, b) t)); RIEvent (EvContent (CNumber [49]))] = Ok out /\
  out = (pre ++ lit " style=""" ++ property t ++ post)%list /\ exists rest, read_rgb post = Some ((r, g, b), 34 :: rest).
Proof.
  intros cfg t r g b Hr Hg Hb. exists (prologue cfg ++ (lit "<mn" ++ attr (lit "style") (property t ++ rgb_str (r, g, b)) ++ lit ">1</mn>") ++ epilogue cfg)%list.
  exists (prologue cfg ++ lit "<mn")%list, (rgb_str (r, g, b) ++ lit """>1</mn>" ++ epilogue cfg)%list.
  split; [|split].
  - unfold push_mathml, write, new_writer. cbn [map]. generalize (prologue cfg), (epilogue cfg). intros p e.
    destruct t; cbv -[rgb_str lit app]; repeat (cbn [app]; rewrite ?app_nil_r, <- ?app_assoc); cbn [app]; reflexivity.
  - unfold attr. rewrite <- !app_assoc. reflexivity.
  - exists (lit ">1</mn>" ++ epilogue cfg)%list. now rewrite rgb_read.
Qed.

(** Six hexadecimal digits. *)
Definition hex_val (c : char) : option N :=
  if (48 <=? c) && (c <=? 57) then Some (c - 48) else if (97 <=? c) && (c <=? 102) then Some (c - 87) else None.
Definition hex2 (a b : char) : option N :=
  match hex_val a, hex_val b with Some x, Some y => Some (16 * x + y) | _, _ => None end.
Definition read_hex (s : str) : option (rgb * str) :=
  match s with
  | a :: b :: c :: d :: e :: f :: s' =>
      match hex2 a b, hex2 c d, hex2 e f with Some r, Some g, Some b => Some ((r, g, b), s') | _, _, _ => None end
  | _ => None
  end.

Lemma hex_bytes : forallb (fun n => match hex_u8 n with [a; b] => match hex2 a b with Some m => m =? n | None => false end | _ => n <? 16 end) (upto 256 0) = true.
Proof. vm_compute. reflexivity. Qed.
Lemma hex_byte : forall n, 16 <= n < 256 -> exists a b, hex_u8 n = [a; b] /\ hex2 a b = Some n.
Proof.
  intros n H. pose proof (proj1 (forallb_forall _ _) hex_bytes n (upto_in 256 0 n ltac:(cbn; lia))) as T. cbv beta in T.
  destruct (hex_u8 n) as [|a [|b [|c l]]]; try (apply N.ltb_lt in T; lia). exists a, b. split; [reflexivity|].
  destruct (hex2 a b); [|discriminate]. apply N.eqb_eq in T. now subst.
Qed.

Lemma error_written : forall cfg msg r g b, c_error_color cfg = (r, g, b) -> 16 <= r < 256 -> 16 <= g < 256 -> 16 <= b < 256 ->
  exists out pre post,
  push_mathml cfg [] [RIErr msg] = Ok out /\
  out = (pre ++ lit "<merror style=""border-color: #" ++ post)%list /\ read_hex post = Some ((r, g, b), lit """><mtext>" ++ msg ++ lit "</mtext></merror>" ++ epilogue cfg)%list.
Proof.
  intros cfg msg r g b E Hr Hg Hb. exists (prologue cfg ++ error_str (r, g, b) msg ++ epilogue cfg)%list.
  exists (prologue cfg), (hex_u8 r ++ hex_u8 g ++ hex_u8 b ++ lit """><mtext>" ++ msg ++ lit "</mtext></merror>" ++ epilogue cfg)%list.
  split; [|split].
  - unfold push_mathml, write, new_writer. cbn [map]. generalize (prologue cfg), (epilogue cfg). intros p e.
    destruct cfg as [d a col x st]. cbn [c_error_color] in E. subst col. cbv -[error_str lit app]. rewrite ?app_nil_r, <- ?app_assoc. reflexivity.
  - unfold error_str. rewrite <- !app_assoc. reflexivity.
  - destruct (hex_byte r Hr) as (a1 & b1 & -> & E1). destruct (hex_byte g Hg) as (a2 & b2 & -> & E2). destruct (hex_byte b Hb) as (a3 & b3 & -> & E3).
    cbn [app read_hex]. now rewrite E1, E2, E3.
Qed.
