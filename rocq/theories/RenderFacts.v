(** * RenderFacts: what each part of the renderer writes. *)

From Coq Require Import List NArith ZArith Bool Lia.
From Verif Require Import Base Float32 Event Tables Prim FontTable Spans DisplayFacts Mathml SpecEvent SpecStream SpecXml XmlFacts.
Import ListNotations.
Open Scope N_scope.
Open Scope sm_scope.

Arguments lit : simpl never.
Arguments attr : simpl never.
Arguments open_str : simpl never.
Arguments close_str : simpl never.

(** ** Peeking *)

(** The items still to come. *)
Definition stream {A} (m : manypeek A) : list A := (peeked m ++ iter m)%list.

Lemma next_stream : forall A (m : manypeek A),
  match mp_next m with
  | (Some x, m') => stream m = x :: stream m'
  | (None, m') => m' = m /\ stream m = []
  end.
Proof.
  intros A [[|x p] [|y l]]; cbn; auto.
Qed.

Lemma peek_next_stream : forall A (m : manypeek A),
  match mp_peek_next m with
  | (Some x, m') => stream m' = stream m /\ peeked m' = (peeked m ++ [x])%list /\ iter m = x :: iter m'
  | (None, m') => m' = m /\ iter m = []
  end.
Proof.
  intros A [p [|y l]]; cbn; auto. unfold stream. cbn. now rewrite <- app_assoc.
Qed.

Lemma peek_first_stream : forall A (m : manypeek A),
  match mp_peek_first m with
  | (x, m') => x = nth_error (stream m) 0 /\ stream m' = stream m
  end.
Proof.
  intros A [[|x p] [|y l]]; cbn; auto.
Qed.

(** The first item that tells the class of the next atom. *)
Fixpoint first_atom (l : list ritem) : option atom_class :=
  match l with
  | [] => None
  | i :: l' => match atom_of i with None => first_atom l' | Some a => a end
  end.

Lemma next_atom_loop_spec : forall fuel index m,
  (length (peeked m) - index + 2 * length (iter m) < fuel)%nat -> (index <= length (peeked m))%nat ->
  exists m', next_atom_loop fuel index m = (Ok (first_atom (skipn index (stream m))), m') /\ stream m' = stream m.
Proof.
  induction fuel as [|f IH]; intros index m Hf Hi; [lia|]. cbn [next_atom_loop].
  unfold mp_peeked_nth. destruct (nth_error (peeked m) index) as [i|] eqn:E.
  - assert (Hl : (index < length (peeked m))%nat) by (apply nth_error_Some; congruence).
    assert (Es : skipn index (stream m) = i :: skipn (S index) (stream m)).
    { assert (E' : nth_error (stream m) index = Some i) by (unfold stream; rewrite nth_error_app1; auto).
      revert E'. generalize (stream m) as l. clear. induction index as [|n IHn]; intros [|x l] H; cbn in *; try discriminate; [congruence|].
      apply IHn in H. exact H. }
    rewrite Es. cbn [first_atom]. destruct (atom_of i) as [a|]; [eauto|].
    apply IH; lia.
  - apply nth_error_None in E. pose proof (peek_next_stream ritem m) as P.
    assert (index = length (peeked m)) by lia. subst index.
    assert (Es : skipn (length (peeked m)) (stream m) = iter m).
    { unfold stream. rewrite skipn_app, skipn_all, Nat.sub_diag. reflexivity. }
    destruct (mp_peek_next m) as [[i|] m'].
    + destruct P as (P1 & P2 & P3). rewrite Es, P3. cbn [first_atom]. destruct (atom_of i) as [a|] eqn:Ea; [eauto|].
      destruct (IH (length (peeked m)) m') as (m2 & H1 & H2).
      * rewrite P2, app_length. rewrite P3 in Hf. cbn [length] in *. lia.
      * rewrite P2, app_length. lia.
      * exists m2. rewrite H1, H2, P1. split; auto. rewrite Es, P3. cbn [first_atom]. now rewrite Ea.
    + destruct P as [-> P2]. rewrite Es, P2. eauto.
Qed.

Lemma next_atom_spec : forall r, exists m',
  next_atom r = (Ok (first_atom (stream (r_in r))), set_in m' r) /\ stream m' = stream (r_in r).
Proof.
  intro r. unfold next_atom.
  destruct (next_atom_loop_spec (S (length (peeked (r_in r)) + 2 * length (iter (r_in r)))) 0 (r_in r)) as (m' & H1 & H2); try lia.
  rewrite H1. eauto.
Qed.

(** ** Steps of the writer *)

(** From [r] to [r'] a text was written that is read as [ts]. *)
Definition wrote (st : option bool) (m : xmode) (ts : list xtag) (m' : xmode) (r r' : rst) : Prop :=
  exists s, r_out r' = (r_out r ++ s)%list /\ reads st m s ts m'.

Lemma wrote_refl : forall st m r r', r_out r' = r_out r -> wrote st m [] m r r'.
Proof. intros st m r r' H. exists []. rewrite app_nil_r. split; [exact H|apply reads_nil]. Qed.

Lemma wrote_trans : forall st m m1 m2 t1 t2 r r1 r2,
  wrote st m t1 m1 r r1 -> wrote st m1 t2 m2 r1 r2 -> wrote st m (t1 ++ t2) m2 r r2.
Proof.
  intros st m m1 m2 t1 t2 r r1 r2 (s & H1 & H2) (s' & H3 & H4). exists (s ++ s')%list.
  split; [rewrite H3, H1; now rewrite app_assoc|eapply reads_app; eassumption].
Qed.

Lemma wrote_eq : forall st m m' t t' r r', wrote st m t m' r r' -> t = t' -> wrote st m t' m' r r'.
Proof. intros. now subst. Qed.

(** The states and the items to come are unchanged. *)
Definition kept (r r' : rst) : Prop :=
  r_states r' = r_states r /\ stream (r_in r') = stream (r_in r).

Lemma kept_refl : forall r, kept r r.
Proof. split; reflexivity. Qed.
Lemma kept_trans : forall a b c, kept a b -> kept b c -> kept a c.
Proof. intros a b c [] []. split; congruence. Qed.

(** ** Function application *)

Lemma thin_reads : forall st, reads st QText thin_space [XE (lit "mspace") [(lit "width", lit "0.1667em")]] QText.
Proof. intros st. lexlit st. Qed.
Lemma apply_reads : forall st, reads st QText apply_mo [XO (lit "mo") []; XT 8289; XC (lit "mo")] QText.
Proof. intros st. lexlit st. Qed.

Lemma adds_mo : forall o t, is_text t -> adds o 1 [XO (lit "mo") []; t; XC (lit "mo")].
Proof. intros o t H. apply (adds_token o (lit "mo") [] [t]); try reflexivity. repeat constructor. exact H. Qed.

Lemma fn_apply_spec : forall (o : ropts) r, exists r' ts k,
  fn_apply r = (Ok tt, r') /\ wrote (strict o) QText ts QText r r' /\ adds o k ts /\ kept r r'
  /\ r_envs r' = r_envs r /\ r_prev r' = r_prev r.
Proof.
  intros o r. unfold fn_apply. unfold bind at 1. destruct (next_atom_spec r) as (m' & -> & Hm).
  assert (H0 : wrote (strict o) QText [XO (lit "mo") []; XT 8289; XC (lit "mo")] QText r
                 (set_out (r_out r ++ apply_mo) (set_in m' r))).
  { exists apply_mo. split; [reflexivity|apply apply_reads]. }
  assert (H1 : wrote (strict o) QText ([XO (lit "mo") []; XT 8289; XC (lit "mo")] ++ [XE (lit "mspace") [(lit "width", lit "0.1667em")]]) QText r
                 (set_out ((r_out r ++ apply_mo) ++ thin_space) (set_in m' r))).
  { exists (apply_mo ++ thin_space)%list. split; [cbn; now rewrite app_assoc|].
    eapply reads_app; [apply apply_reads|apply thin_reads]. }
  assert (A0 : adds o 1 [XO (lit "mo") []; XT 8289; XC (lit "mo")]) by (apply adds_mo; exact I).
  assert (A1 : adds o (1 + 1) ([XO (lit "mo") []; XT 8289; XC (lit "mo")] ++ [XE (lit "mspace") [(lit "width", lit "0.1667em")]])).
  { apply adds_app; [exact A0|]. now apply adds_empty. }
  destruct (first_atom (stream (r_in r))) as [a|].
  - destruct a; eexists _, _, _;
      (split; [reflexivity|]; split; [first [exact H0|exact H1]|]; split; [first [exact A0|exact A1]|];
       split; [split; [reflexivity|exact Hm]|]; split; reflexivity).
  - eexists _, _, _. split; [reflexivity|]. split; [apply wrote_refl; reflexivity|]. split; [apply adds_nil|].
    split; [split; [reflexivity|exact Hm]|]. split; reflexivity.
Qed.

(** ** Fonts *)

(** Every image of a character by a font is a character. *)
Definition range_valid (x : N * N * N) : bool :=
  let '(lo, hi, off) := x in (57343 <? lo + off) && (hi + off <? 1114112) || (hi + off <? 55296).
Lemma ranges_valid : forall f, forallb range_valid (font_ranges f) = true.
Proof. intros []; vm_compute; reflexivity. Qed.
Definition range_far (x : N * N * N) : bool := let '(lo, hi, off) := x in 62 <? lo + off.
Lemma ranges_far : forall f, forallb range_far (font_ranges f) = true.
Proof. intros []; vm_compute; reflexivity. Qed.

Lemma font_offset_cases : forall c l, font_offset c l = 0 \/
  exists lo hi off, In (lo, hi, off) l /\ lo <= c <= hi /\ font_offset c l = off.
Proof.
  induction l as [|[[lo hi] off] l IH]; cbn [font_offset]; [auto|].
  destruct ((lo <=? c) && (c <=? hi)) eqn:E.
  - apply andb_prop in E as [E1 E2]. apply N.leb_le in E1, E2. right. exists lo, hi, off. repeat split; auto. now left.
  - destruct IH as [IH|(a & b & d & H1 & H2 & H3)]; [auto|]. right. exists a, b, d. repeat split; try tauto. now right.
Qed.

Lemma map_char_ok : forall f c, valid_char c = true -> map_char f c = Ok (c + font_offset c (font_ranges f)).
Proof.
  intros f c H. unfold map_char. destruct (font_offset_cases c (font_ranges f)) as [E|(lo & hi & off & H1 & H2 & H3)].
  - rewrite E, N.add_0_r, H. reflexivity.
  - rewrite H3. pose proof (ranges_valid f) as V. rewrite forallb_forall in V. specialize (V _ H1).
    unfold range_valid in V. replace (valid_char (c + off)) with true; [reflexivity|]. symmetry. unfold valid_char.
    apply orb_prop in V as [V|V].
    + apply andb_prop in V as [V1 V2]. apply N.ltb_lt in V1, V2.
      assert (V3 : (57343 <? c + off) = true) by (apply N.ltb_lt; lia).
      assert (V4 : (c + off <? 1114112) = true) by (apply N.ltb_lt; lia). rewrite V3, V4. apply orb_true_r.
    + apply N.ltb_lt in V. assert (V1 : (c + off <? 55296) = true) by (apply N.ltb_lt; lia). now rewrite V1.
Qed.

Lemma map_char_text : forall f c, text_char c = true -> text_char (c + font_offset c (font_ranges f)) = true.
Proof.
  intros f c H. destruct (font_offset_cases c (font_ranges f)) as [E|(lo & hi & off & H1 & H2 & H3)].
  - now rewrite E, N.add_0_r.
  - rewrite H3. pose proof (ranges_far f) as V. rewrite forallb_forall in V. specialize (V _ H1).
    unfold range_far in V. apply N.ltb_lt in V. unfold text_char.
    destruct (N.eqb_spec (c + off) 60); [lia|]. destruct (N.eqb_spec (c + off) 38); [lia|]. reflexivity.
Qed.

Definition font_map (f : font) (s : str) : str := map (fun c => c + font_offset c (font_ranges f)) s.

Lemma map_chars_ok : forall f s, valid_str s -> map_chars f s = Ok (font_map f s).
Proof.
  intros f s H. induction H as [|c s H1 H IH]; [reflexivity|]. cbn [map_chars]. rewrite (map_char_ok f c H1), IH. reflexivity.
Qed.
Lemma font_map_text : forall f s, text_ok s = true -> text_ok (font_map f s) = true.
Proof.
  induction s as [|c s IH]; intro H; [reflexivity|]. apply andb_prop in H as [H1 H2]. cbn [font_map map text_ok forallb].
  rewrite (map_char_text f c H1). exact (IH H2).
Qed.

(** ** Contents *)

Definition is_function (c : content) : bool := match c with CFunction _ => true | _ => false end.

(** The stack, but for the marks of functions. *)
Definition unmark (e : env) : env := match e with ENScript t a n _ => ENScript t a n false | _ => e end.

Lemma prev_atom_spec : forall a r, exists p, set_previous_atom a r = (Ok tt, set_prev p r).
Proof.
  intros a r. unfold set_previous_atom, modify. destruct (keeps_previous (r_envs r)).
  - exists (r_prev r). destruct r; reflexivity.
  - eauto.
Qed.

Lemma prev_atom_eq : forall a r,
  set_previous_atom a r = (Ok tt, set_prev (if keeps_previous (r_envs r) then r_prev r else Some a) r).
Proof. intros a r. unfold set_previous_atom, modify. destruct (keeps_previous (r_envs r)); [destruct r|]; reflexivity. Qed.

Lemma open_tag_spec : forall tag c r s l, r_states r = s :: l ->
  open_tag tag c r = (Ok tt, set_out (r_out r ++ open_str (r_envs r) s tag c) r).
Proof. intros tag c r s l H. unfold open_tag, state, bind, get, wr, modify. rewrite H. reflexivity. Qed.

Lemma reads_neg : forall st b, reads st QText (neg_str b) (map XT (neg_str b)) QText.
Proof. intros st []; lexlit st. Qed.

Lemma text_neg : forall b, text_ok (neg_str b) = true.
Proof. intros []; reflexivity. Qed.

Lemma text_ok_app : forall a b, text_ok (a ++ b) = text_ok a && text_ok b.
Proof. intros. apply forallb_app. Qed.

Lemma trim_valid : forall s, valid_str s -> valid_str (trim s).
Proof.
  assert (T : forall s, valid_str s -> valid_str (trim_start s)).
  { induction 1 as [|c s H1 H IH]; cbn; [constructor|]. destruct (is_ws c); [exact IH|]. now constructor. }
  intros s H. unfold trim. apply Forall_rev. apply T. apply Forall_rev. now apply T.
Qed.

(** A token element written piece by piece. *)
Lemma wrote_token : forall (o : ropts) r r' envs s n c extra atts txt tags,
  r_out r' = (r_out r ++ open_str envs s n c ++ extra ++ lit ">" ++ txt ++ close_str n)%list ->
  attr_name n = true -> token_elem n = true -> formula_elem n = true -> required n = None ->
  match c with Some v => val_ok v = true | None => True end ->
  (forall m, in_open m n (open_atts envs s c) -> exists m', reads (strict o) m extra [] m' /\ in_open m' n atts) ->
  reads (strict o) QText txt tags QText -> Forall is_text tags ->
  wrote (strict o) QText (XO n atts :: tags ++ [XC n]) QText r r' /\ adds o 1 (XO n atts :: tags ++ [XC n]).
Proof.
  intros o r r' envs s n c extra atts txt tags Hout Hn H1 H2 H3 Hc Hx Ht Htx. split; [|now apply adds_token].
  exists (open_str envs s n c ++ extra ++ lit ">" ++ txt ++ close_str n)%list. split; [exact Hout|].
  destruct (reads_open (strict o) envs s n c Hn Hc) as (m1 & R1 & O1). destruct (Hx m1 O1) as (m2 & R2 & O2).
  eapply reads_cat with (t1 := []); [exact R1| |reflexivity].
  eapply reads_cat with (t1 := []); [exact R2| |reflexivity].
  eapply reads_cat with (t1 := [XO n atts]); [exact (reads_gt (strict o) m2 n atts O2)| |reflexivity].
  eapply reads_cat; [exact Ht|apply reads_close; exact Hn|reflexivity].
Qed.

Lemma no_extra : forall st n atts m, in_open m n atts -> exists m', reads st m [] [] m' /\ in_open m' n atts.
Proof. intros st n atts m H. exists m. split; [apply reads_nil|exact H]. Qed.

Lemma one_extra : forall st n envs s c a v m, in_open m n (open_atts envs s c) ->
  attr_name a = true -> mem a open_names = false -> val_ok v = true ->
  exists m', reads st m (attr a v) [] m' /\ in_open m' n (open_atts envs s c ++ [(a, v)]).
Proof.
  intros st n envs s c a v m H Ha Hf Hv. eexists. split; [apply (reads_attr st m n _ a v H Ha)|auto]; [|exact Hv].
  now apply fresh_open.
Qed.

Lemma nbsp_if : forall st b, st <> Some true \/ b = false ->
  reads st QText (if b then lit "&nbsp;" else []) (if b then [XN (lit "nbsp")] else []) QText.
Proof. intros [[]|] [] [H|H]; try exact I; try reflexivity; try congruence; discriminate. Qed.

Ltac run := unfold wr, when, bind, ret, get, modify, of_res.
Ltac fields := cbn [r_in r_out r_envs r_states r_prev r_err set_in set_out set_envs set_states set_prev set_err].


(** The end of a case of [write_content]. *)
Lemma content_done : forall (o : ropts) (fn : bool) r r' n atts tags,
  wrote (strict o) QText (XO n atts :: tags ++ [XC n]) QText r r' /\ adds o 1 (XO n atts :: tags ++ [XC n]) ->
  kept r r' -> r_envs r' = r_envs r ->
  exists r'' ts k, (@Ok unit tt, r') = (Ok tt, r'') /\ wrote (strict o) QText ts QText r r'' /\ adds o k ts /\ kept r r''
    /\ map unmark (r_envs r'') = map unmark (r_envs r)
    /\ (fn = false -> k = 1%nat)
    /\ (fn = false \/ mark_fn (r_envs r) = None -> r_envs r'' = r_envs r).
Proof.
  intros o fn r r' n atts tags [H1 H2] H3 H4. exists r', (XO n atts :: tags ++ [XC n])%list, 1%nat.
  split; [reflexivity|]. split; [exact H1|]. split; [exact H2|]. split; [exact H3|]. split; [now rewrite H4|]. auto.
Qed.

Lemma reads_text_neg : forall st t b, st = None \/ text_ok t = true ->
  reads st QText (t ++ neg_str b) (map XT (t ++ neg_str b)) QText.
Proof. intros st t b [H|H]; apply reads_text; [now left|right]. rewrite text_ok_app, H, text_neg. reflexivity. Qed.

Lemma text_one : forall (st : option bool) c, st = None \/ text_char c = true -> st = None \/ text_ok [c] = true.
Proof. intros st c [H|H]; [now left|right]. cbn. now rewrite H. Qed.

(** What cleanliness gives, when the text is looked at. *)
Lemma clean_some : forall (st : option bool) (x : bool), (match st with None => true | Some _ => x end) = true -> st = None \/ x = true.
Proof. intros [b|] x H; [now right|now left]. Qed.
Ltac looked H := apply clean_some in H.

Ltac prev := match goal with |- context [set_previous_atom ?a ?q] =>
  let p := fresh "p" in destruct (prev_atom_spec a q) as (p & ->) end.
Ltac opent s l := match goal with |- context [open_tag ?t ?c ?q] => rewrite (open_tag_spec t c q s l eq_refl) end.
Ltac token_out := fields; cbn [app]; rewrite ?app_nil_r, <- ?app_assoc; cbn [app]; rewrite ?app_nil_r, <- ?app_assoc; reflexivity.
Ltac kept_now := split; [split; reflexivity|reflexivity] || (split; reflexivity) || reflexivity.

Lemma write_content_spec : forall (o : ropts) cfg c neg r s l,
  r_states r = s :: l -> content_valid c -> content_clean (strict o) c = true ->
  exists r' ts k, write_content cfg c neg r = (Ok tt, r')
    /\ wrote (strict o) QText ts QText r r' /\ adds o k ts /\ kept r r'
    /\ map unmark (r_envs r') = map unmark (r_envs r)
    /\ (is_function c = false -> k = 1%nat)
    /\ (is_function c = false \/ mark_fn (r_envs r) = None -> r_envs r' = r_envs r).
Proof.
  intros o cfg c neg r s l Hs Hv Hc. destruct r as [ri ro re rs rp rr]. cbn [r_states] in Hs. subst rs.
  destruct c as [t|t|t|x stretchy|x small|x small|x second small|x size ty|x]; cbn [content_valid] in Hv; unfold content_clean in Hc; unfold write_content.
  - (* text *)
    change (lit "</mtext>") with (close_str (lit "mtext")).
    cbv zeta. pose proof (fun f => map_chars_ok f (trim t) (trim_valid t Hv)) as Hm.
    unfold state. run. opent s l. fields.
    assert (Hb : reads (strict o) QText
      ((if starts_ws t then lit "&nbsp;" else []) ++ write_escaped (match t_font s with None => trim t | Some f => font_map f (trim t) end)
                 ++ (if ends_ws t then lit "&nbsp;" else []))
      ((if starts_ws t then [XN (lit "nbsp")] else []) ++ map escaped_tag (match t_font s with None => trim t | Some f => font_map f (trim t) end)
                 ++ (if ends_ws t then [XN (lit "nbsp")] else []))%list QText).
    { assert (Hst : strict o <> Some true \/ starts_ws t || ends_ws t = false).
      { destruct (strict o) as [[]|]; [|left; discriminate..]. right. now apply negb_true_iff in Hc. }
      eapply reads_app; [apply nbsp_if; destruct Hst as [H|H]; [auto|]; apply orb_false_iff in H; tauto|].
      eapply reads_app; [apply reads_escaped|apply nbsp_if; destruct Hst as [H|H]; [auto|]; apply orb_false_iff in H; tauto]. }
    assert (Hx : Forall is_text ((if starts_ws t then [XN (lit "nbsp")] else []) ++ map escaped_tag (match t_font s with None => trim t | Some f => font_map f (trim t) end)
                 ++ (if ends_ws t then [XN (lit "nbsp")] else []))).
    { apply Forall_app. split; [destruct (starts_ws t); repeat constructor|]. apply Forall_app. split; [apply text_escaped|].
      destruct (ends_ws t); repeat constructor. }
    destruct (starts_ws t); fields; (destruct (t_font s) as [f|]; [rewrite Hm|]); fields; (destruct (ends_ws t); fields);
      prev; fields; (eapply content_done; [|split; reflexivity|reflexivity]);
      (eapply wrote_token with (envs := re) (s := s) (c := None) (n := lit "mtext") (extra := []);
        [ |reflexivity|reflexivity|reflexivity|reflexivity|exact I|exact (no_extra _ _ _)|exact Hb|exact Hx]; token_out).
  - (* number *)
    change (lit "</mn>") with (close_str (lit "mn")). unfold state. run. opent s l. fields.
    set (f := match t_font s with Some FBoldSymbol => Some FBold | o => o end).
    assert (Hm : match f with None => Ok t | Some f => map_chars f t end = Ok (match f with None => t | Some f => font_map f t end)).
    { destruct f; [now apply map_chars_ok|reflexivity]. }
    assert (Ht : strict o = None \/ text_ok (match f with None => t | Some f => font_map f t end) = true).
    { looked Hc. destruct Hc as [Hc|Hc]; [now left|right]. destruct f; [now apply font_map_text|exact Hc]. }
    rewrite Hm. prev. fields. eapply content_done; [|split; reflexivity|reflexivity].
    eapply wrote_token with (envs := re) (s := s) (c := None) (n := lit "mn") (extra := []);
      [ |reflexivity|reflexivity|reflexivity|reflexivity|exact I|exact (no_extra _ _ _)|exact (reads_text _ _ Ht)|apply text_map]; token_out.
  - (* function *)
    change (lit "</mi>") with (close_str (lit "mi")).
    set (pre := if after_operand rp then thin_space else []).
    set (ex := if Nat.eqb (length t) 1 then attr (lit "mathvariant") (lit "normal") else []).
    set (atts := (open_atts re s None ++ if Nat.eqb (length t) 1 then [(lit "mathvariant", lit "normal")] else [])%list).
    assert (E : exists p, (forall k : R unit, 
        (do r <- get ; when (after_operand (r_prev r)) (wr thin_space) ;; open_tag (lit "mi") None ;;
         wr (if Nat.eqb (length t) 1 then lit " mathvariant=""normal"">" else lit ">") ;; wr t ;;
         set_previous_atom AtOp ;; wr (close_str (lit "mi")) ;; k) (mkRst ri ro re (s :: l) rp rr) =
        k (mkRst ri (ro ++ pre ++ open_str re s (lit "mi") None ++ ex ++ lit ">" ++ t ++ close_str (lit "mi")) re (s :: l) p rr))).
    { unfold pre, ex. assert (Eo : (if Nat.eqb (length t) 1 then lit " mathvariant=""normal"">" else lit ">") =
        ((if Nat.eqb (length t) 1 then attr (lit "mathvariant") (lit "normal") else []) ++ lit ">")%list) by (destruct (Nat.eqb _ _); reflexivity).
      rewrite Eo. exists (if keeps_previous re then rp else Some AtOp). intro k. run. fields.
      destruct (after_operand rp); fields; opent s l; fields; rewrite prev_atom_eq; fields; rewrite <- ?app_assoc; reflexivity. }
    destruct E as (p & E). rewrite E. clear E. fields. run. fields.
    set (r1 := mkRst ri (ro ++ pre ++ open_str re s (lit "mi") None ++ ex ++ lit ">" ++ t ++ close_str (lit "mi")) re (s :: l) p rr).
    assert (W1 : wrote (strict o) QText ((if after_operand rp then [XE (lit "mspace") [(lit "width", lit "0.1667em")]] else []) ++ (XO (lit "mi") atts :: map XT t ++ [XC (lit "mi")])) QText (mkRst ri ro re (s :: l) rp rr) r1
      /\ adds o ((if after_operand rp then 1 else 0) + 1) ((if after_operand rp then [XE (lit "mspace") [(lit "width", lit "0.1667em")]] else []) ++ (XO (lit "mi") atts :: map XT t ++ [XC (lit "mi")]))).
    { assert (W0 : wrote (strict o) QText (if after_operand rp then [XE (lit "mspace") [(lit "width", lit "0.1667em")]] else []) QText
               (mkRst ri ro re (s :: l) rp rr) (mkRst ri (ro ++ pre) re (s :: l) rp rr)).
      { exists pre. split; [reflexivity|]. unfold pre. destruct (after_operand rp); [apply thin_reads|apply reads_nil]. }
      destruct (wrote_token o (mkRst ri (ro ++ pre) re (s :: l) rp rr) r1 re s (lit "mi") None ex atts t (map XT t)) as [T1 T2]; try reflexivity.
      - unfold r1. token_out.
      - unfold ex, atts. intros m Hm. destruct (Nat.eqb (length t) 1); [|rewrite app_nil_r; now apply no_extra].
        now apply one_extra.
      - apply reads_text. now looked Hc.
      - apply text_map.
      - split; [exact (wrote_trans _ _ _ _ _ _ _ _ _ W0 T1)|]. apply adds_app; [|exact T2].
        destruct (after_operand rp); [now apply adds_empty|apply adds_nil]. }
    destruct W1 as [W1 A1].
    destruct (mark_fn re) as [re'|] eqn:Em.
    + eexists _, _, _. split; [reflexivity|]. split; [exact W1|]. split; [exact A1|]. split; [split; reflexivity|].
      split; [|split; [discriminate|fields; intros [H|H]; [discriminate H|congruence]]]. fields. destruct re as [|[g|v n|ty ab n fn] re0]; cbn in Em; try discriminate. injection Em as <-. reflexivity.
    + destruct (fn_apply_spec o r1) as (r2 & ts2 & k2 & F1 & F2 & F3 & F4 & F5 & F6). rewrite F1.
      eexists _, _, _. split; [reflexivity|]. split; [exact (wrote_trans _ _ _ _ _ _ _ _ _ W1 F2)|].
      split; [exact (adds_app _ _ _ _ _ A1 F3)|]. split; [exact F4|]. split; [now rewrite F5|]. split; [discriminate|]. intros _. now rewrite F5.
  - (* ordinary *)
    looked Hc. destruct stretchy.
    + run. fields. eapply content_done; [|split; reflexivity|reflexivity].
      assert (T : reads (strict o) QText (lit "<mo stretchy=""true"">") [XO (lit "mo") [(lit "stretchy", lit "true")]] QText) by (lexlit (strict o)).
      split; [|apply (adds_token o (lit "mo") _ [XT x]); try reflexivity; repeat constructor].
      exists ((lit "<mo stretchy=""true"">" ++ [x]) ++ lit "</mo>")%list. fields. split; [now rewrite <- !app_assoc|].
      eapply reads_cat with (t1 := [XO (lit "mo") [(lit "stretchy", lit "true")]; XT x]);
        [eapply reads_app with (t1 := [XO (lit "mo") [(lit "stretchy", lit "true")]]); [exact T|apply reads_char; exact Hc]|apply (reads_close _ (lit "mo")); reflexivity|reflexivity].
    + change (lit "</mi>") with (close_str (lit "mi")).
      change (lit " mathvariant=""normal"">") with (attr (lit "mathvariant") (lit "normal") ++ lit ">")%list.
      unfold state. run. opent s l. fields.
      destruct (t_font s) as [[]|] eqn:Ef; destruct (should_be_upright (c_style cfg) x);
      (try match goal with |- context [map_char ?f x] => rewrite (map_char_ok f x Hv); assert (Hx : strict o = None \/ text_char (x + font_offset x (font_ranges f)) = true) by (destruct Hc as [Hc|Hc]; [now left|right; exact (map_char_text f x Hc)]) end);
      fields; prev; fields; (eapply content_done; [|split; reflexivity|reflexivity]);
      match goal with
        | |- context [attr] =>
          eapply wrote_token with (envs := re) (s := s) (c := None) (n := lit "mi") (extra := attr (lit "mathvariant") (lit "normal")) (txt := ([x] ++ neg_str neg)%list);
            [ |reflexivity|reflexivity|reflexivity|reflexivity|exact Logic.I
              |intros m Hm; apply one_extra; [exact Hm|reflexivity|reflexivity|reflexivity]
              |apply reads_text_neg, text_one; exact Hc|apply text_map]
        | |- context [font_offset ?a ?b] =>
          eapply wrote_token with (envs := re) (s := s) (c := None) (n := lit "mi") (extra := []) (txt := ([x + font_offset a b] ++ neg_str neg)%list);
            [ |reflexivity|reflexivity|reflexivity|reflexivity|exact Logic.I
              |exact (no_extra _ _ _)
              |apply reads_text_neg, text_one; exact Hx|apply text_map]
        | _ =>
          eapply wrote_token with (envs := re) (s := s) (c := None) (n := lit "mi") (extra := []) (txt := ([x] ++ neg_str neg)%list);
            [ |reflexivity|reflexivity|reflexivity|reflexivity|exact Logic.I
              |exact (no_extra _ _ _)
              |apply reads_text_neg, text_one; exact Hc|apply text_map]
        end; token_out.
  - (* large operator *)
    looked Hc.
    change (lit "</mo>") with (close_str (lit "mo")).
    change (lit " movablelimits=""false"">") with (attr (lit "movablelimits") (lit "false") ++ lit ">")%list.
    change (lit " largeop=""false""") with (attr (lit "largeop") (lit "false")).
    run. opent s l. fields. destruct small; fields; prev; fields; (eapply content_done; [|split; reflexivity|reflexivity]).
    + eapply wrote_token with (envs := re) (s := s) (c := None) (n := lit "mo")
         (extra := (attr (lit "largeop") (lit "false") ++ attr (lit "movablelimits") (lit "false"))%list) (txt := ([x] ++ neg_str neg)%list)
         (atts := ((open_atts re s None ++ [(lit "largeop", lit "false")]) ++ [(lit "movablelimits", lit "false")])%list);
        [ |reflexivity|reflexivity|reflexivity|reflexivity|exact Logic.I| |apply reads_text_neg, text_one; exact Hc|apply text_map]; [token_out|].
      intros m Hm. destruct (one_extra (strict o) (lit "mo") re s None (lit "largeop") (lit "false") m Hm) as (m1 & R1 & O1); try reflexivity.
      eexists. split; [eapply reads_cat with (t1 := []); [exact R1|apply (reads_attr (strict o) m1 (lit "mo") _ (lit "movablelimits") (lit "false") O1); [reflexivity| |reflexivity]|reflexivity]|apply in_open_tag].
      rewrite fresh_app, fresh_open; reflexivity.
    + eapply wrote_token with (envs := re) (s := s) (c := None) (n := lit "mo") (extra := attr (lit "movablelimits") (lit "false")) (txt := ([x] ++ neg_str neg)%list);
            [ |reflexivity|reflexivity|reflexivity|reflexivity|exact Logic.I
              |intros m Hm; apply one_extra; [exact Hm|reflexivity|reflexivity|reflexivity]
              |apply reads_text_neg, text_one; exact Hc|apply text_map]; token_out.
  - (* binary operator *)
    looked Hc.
    assert (E : exists b m', stream m' = stream ri /\
      (if after_operand rp && bin_context re then
                      do a <- next_atom ;
                      ret (match a with
                           | Some (AtInner | AtBin | AtOp | AtOrd | AtOpen) => true
                           | _ => false
                           end)
                    else ret false) (mkRst ri ro re (s :: l) rp rr) = (Ok b, mkRst m' ro re (s :: l) rp rr)).
    { destruct (after_operand rp && bin_context re).
      - destruct (next_atom_spec (mkRst ri ro re (s :: l) rp rr)) as (m' & E & Em). unfold bind at 1. rewrite E.
        eexists _, m'. split; [exact Em|reflexivity].
      - exists false, ri. split; reflexivity. }
    destruct E as (b & m' & Em & E). unfold bind at 1. unfold get at 1. cbn [r_prev r_envs]. unfold bind at 1. rewrite E. clear E.
    run. rewrite prev_atom_eq. fields. opent s l. fields.
    eapply content_done; [|split; [reflexivity|exact Em]|reflexivity].
    eapply wrote_token with (envs := re) (s := s) (c := if small then Some (lit "small") else None) (n := if b then lit "mo" else lit "mi") (extra := [])
      (txt := ([x] ++ neg_str neg)%list);
      [ |destruct b; reflexivity|destruct b; reflexivity|destruct b; reflexivity|destruct b; reflexivity|destruct small; [reflexivity|exact Logic.I]|exact (no_extra _ _ _)
       |apply reads_text_neg, text_one; exact Hc|apply text_map]; token_out.
  - (* relation *)
    change (lit "</mo>") with (close_str (lit "mo")). run. opent s l. fields. prev. fields.
    eapply content_done; [|split; reflexivity|reflexivity].
    assert (Hc1 : strict o = None \/ text_ok ([x] ++ match second with Some d => [d] | None => [] end) = true).
    { destruct (strict o); [right|now left]. apply andb_prop in Hc as [Hc1 Hc2]. cbn. rewrite Hc1. destruct second; [|reflexivity]. cbn. now rewrite Hc2. }
    eapply wrote_token with (envs := re) (s := s) (c := if small then Some (lit "small") else None) (n := lit "mo") (extra := [])
      (txt := (([x] ++ match second with Some d => [d] | None => [] end) ++ neg_str neg)%list);
      [ |reflexivity|reflexivity|reflexivity|reflexivity|destruct small; [reflexivity|exact Logic.I]|exact (no_extra _ _ _)
       |apply reads_text_neg; exact Hc1|apply text_map]; token_out.
  - (* delimiter *)
    change (lit "</mo>") with (close_str (lit "mo")). run. opent s l. fields.
    assert (Hz : size <> None -> strict o <> Some true).
    { intro Hn. destruct (strict o) as [[]|]; try discriminate. exfalso. apply andb_prop in Hc as [_ Hz]. destruct size; [discriminate|now apply Hn]. }
    assert (Hc0 : strict o = None \/ text_char x = true) by (destruct (strict o); [right; now apply andb_prop in Hc as [Hc _]|now left]).
    clear Hc. rename Hc0 into Hc.
    set (b := bool_str (match ty with DFence => true | _ => is_some size end)).
    assert (Hb : val_ok b = true) by (unfold b; destruct ty; destruct size; reflexivity).
    assert (A : forall m, in_open m (lit "mo") (open_atts re s None) ->
      reads (strict o) m (attr (lit "symmetric") b ++ attr (lit "stretchy") b) []
        (QTag (lit "mo") ((open_atts re s None ++ [(lit "symmetric", b)]) ++ [(lit "stretchy", b)]) false)).
    { intros m Hm. destruct (one_extra (strict o) (lit "mo") re s None (lit "symmetric") b m Hm) as (m1 & R1 & O1); try reflexivity; [exact Hb|].
      eapply reads_cat with (t1 := []); [exact R1|apply (reads_attr (strict o) m1 (lit "mo") _ (lit "stretchy") b O1); [reflexivity| |exact Hb]|reflexivity].
      rewrite fresh_app, fresh_open; reflexivity. }
    destruct size as [z|].
    + fields. rewrite prev_atom_eq. fields. eapply content_done; [|split; reflexivity|reflexivity].
      set (em := (f32_display (size_to_em z) ++ lit "em")%list).
      assert (He : val_ok em = true) by (unfold em; destruct z; vm_compute; reflexivity).
      assert (Hst : strict o = Some true -> false = true) by (intro Hst; exfalso; apply Hz; [discriminate|exact Hst]).
      eapply wrote_token with (envs := re) (s := s) (c := None) (n := lit "mo")
         (extra := ((attr (lit "symmetric") b ++ attr (lit "stretchy") b) ++ lit "minsize=" ++ q ++ em ++ q ++ attr (lit "maxsize") em)%list) (txt := ([x] ++ neg_str neg)%list)
         (atts := ((((open_atts re s None ++ [(lit "symmetric", b)]) ++ [(lit "stretchy", b)]) ++ [(lit "minsize", em)]) ++ [(lit "maxsize", em)])%list);
        [ |reflexivity|reflexivity|reflexivity|reflexivity|exact Logic.I| |apply reads_text_neg, text_one; exact Hc|apply text_map]; [token_out|].
      intros m Hm. eexists. split; [|apply in_open_tag].
      eapply reads_cat with (t1 := []); [exact (A m Hm)| |reflexivity].
      assert (T : reads (strict o) (QTag (lit "mo") ((open_atts re s None ++ [(lit "symmetric", b)]) ++ [(lit "stretchy", b)]) false)
        (lit "minsize" ++ [61; 34] ++ em ++ [34]) [] (QTag (lit "mo") (((open_atts re s None ++ [(lit "symmetric", b)]) ++ [(lit "stretchy", b)]) ++ [(lit "minsize", em)]) false)).
      { apply reads_attr_tail; [exact Hst|reflexivity| |exact He]. rewrite !fresh_app, fresh_open; reflexivity. }
      assert (T2 : reads (strict o) (QTag (lit "mo") (((open_atts re s None ++ [(lit "symmetric", b)]) ++ [(lit "stretchy", b)]) ++ [(lit "minsize", em)]) false)
         (attr (lit "maxsize") em) [] (QTag (lit "mo") ((((open_atts re s None ++ [(lit "symmetric", b)]) ++ [(lit "stretchy", b)]) ++ [(lit "minsize", em)]) ++ [(lit "maxsize", em)]) false)).
      { apply reads_attr; [apply in_open_tag|reflexivity| |exact He]. rewrite !fresh_app, fresh_open; reflexivity. }
      pose proof (reads_cat _ _ _ _ _ _ _ _ _ T T2 eq_refl) as T3. unfold q. change (lit "minsize=") with (lit "minsize" ++ [61])%list.
      match goal with |- reads _ _ ?s0 _ _ => replace s0 with ((lit "minsize" ++ [61; 34] ++ em ++ [34]) ++ attr (lit "maxsize") em)%list end;
        [exact T3|rewrite <- !app_assoc; cbn [app]; reflexivity].
    + fields. rewrite prev_atom_eq. fields. eapply content_done; [|split; reflexivity|reflexivity].
      eapply wrote_token with (envs := re) (s := s) (c := None) (n := lit "mo")
         (extra := (attr (lit "symmetric") b ++ attr (lit "stretchy") b)%list) (txt := ([x] ++ neg_str neg)%list)
         (atts := ((open_atts re s None ++ [(lit "symmetric", b)]) ++ [(lit "stretchy", b)])%list);
        [ |reflexivity|reflexivity|reflexivity|reflexivity|exact Logic.I| |apply reads_text_neg, text_one; exact Hc|apply text_map]; [token_out|].
      intros m Hm. eexists. split; [exact (A m Hm)|apply in_open_tag].
  - (* punctuation *)
    looked Hc.
    change (lit "</mo>") with (close_str (lit "mo")). run. opent s l. fields. prev. fields.
    eapply content_done; [|split; reflexivity|reflexivity].
    eapply wrote_token with (envs := re) (s := s) (c := None) (n := lit "mo") (extra := []) (txt := ([x] ++ neg_str neg)%list);
      [ |reflexivity|reflexivity|reflexivity|reflexivity|exact Logic.I|exact (no_extra _ _ _)
       |apply reads_text_neg, text_one; exact Hc|apply text_map]; token_out.
Qed.
