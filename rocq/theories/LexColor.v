(** * LexColor: [lex_color] against SpecColor. *)

From Coq Require Import List NArith Bool Lia Arith.
From Verif Require Import Base Float32 Event Tables Lex SpecLex LexFacts PrimFacts Keep SpecColor.
Import ListNotations.
Open Scope N_scope.

Lemma hex_digit_iff : forall c v, hex_digit c = Some v <-> hex_value c v.
Proof.
  intros c v. unfold hex_digit, is_digit, hex_value.
  destruct (N.leb_spec 48 c); destruct (N.leb_spec c 57); cbn [andb];
  destruct (N.leb_spec 65 c); destruct (N.leb_spec c 70); cbn [andb];
  destruct (N.leb_spec 97 c); destruct (N.leb_spec c 102); cbn [andb];
  (split; [intros E; try discriminate; injection E as <-; lia|intros E; try (f_equal; lia); exfalso; lia]).
Qed.

Lemma hex_value_ascii : forall c v, hex_value c v -> c < 128 /\ v < 16 /\ c <> 43.
Proof. intros c v H. unfold hex_value in H. lia. Qed.

(** Two characters accepted as a byte. *)
Definition hex_pair (a b : char) (v : N) : Prop :=
  (exists x y, hex_value a x /\ hex_value b y /\ v = 16 * x + y) \/ (a = 43 /\ hex_value b v).

Lemma u8_pair : forall a b v, u8_from_hex [a; b] = Some v <-> hex_pair a b v.
Proof.
  intros a b v. unfold u8_from_hex, hex_pair. destruct (N.eqb_spec a 43) as [->|Ha].
  - cbn [hex_digits]. split.
    + intros H. right. split; [reflexivity|]. apply hex_digit_iff. destruct (hex_digit b); [|discriminate].
      injection H as <-. reflexivity.
    + intros [(x & y & H & _)|[_ H]]; [apply hex_value_ascii in H; lia|]. apply hex_digit_iff in H. rewrite H. reflexivity.
  - cbn [hex_digits]. split.
    + intros H. left. destruct (hex_digit a) as [x|] eqn:Ex; [|discriminate]. destruct (hex_digit b) as [y|] eqn:Ey; [|discriminate].
      injection H as <-. exists x, y. rewrite <- !hex_digit_iff. split; [exact Ex|]. split; [exact Ey|lia].
    + intros [(x & y & Hx & Hy & ->)|[E _]]; [|congruence]. apply hex_digit_iff in Hx, Hy. rewrite Hx, Hy. f_equal. lia.
Qed.

Lemma hex_pair_ascii : forall a b v, hex_pair a b v -> a < 128 /\ b < 128 /\ v < 256.
Proof.
  intros a b v [(x & y & Hx & Hy & ->)|[-> H]].
  - apply hex_value_ascii in Hx, Hy. lia.
  - apply hex_value_ascii in H. lia.
Qed.

Lemma u8_of_two_bytes : forall s v, blen s = 2 -> u8_from_hex s = Some v -> exists a b, s = [a; b] /\ hex_pair a b v.
Proof.
  intros [|a [|b s]] v Hl H; [discriminate| |].
  - cbn [u8_from_hex] in H. apply hex_digit_iff, hex_value_ascii in H. cbn [blen] in Hl. rewrite clen_ascii in Hl by lia. lia.
  - destruct s as [|c s].
    + exists a, b. split; [reflexivity|]. apply u8_pair. exact H.
    + cbn [blen] in Hl. pose proof (clen_pos a). pose proof (clen_pos b). pose proof (clen_pos c). lia.
Qed.

(** Exactly the accepted texts after the number sign. *)
Lemma hex_color_iff : forall s r g b, lex_color (35 :: s) = Ok (Some (r, g, b)) <->
  exists a1 a2 b1 b2 c1 c2, s = [a1; a2; b1; b2; c1; c2] /\ hex_pair a1 a2 r /\ hex_pair b1 b2 g /\ hex_pair c1 c2 b.
Proof.
  intros s r g b. unfold lex_color, strip_char. rewrite N.eqb_refl. split.
  - intros H. destruct (N.eqb_spec (blen s) 6) as [Hl|]; [|discriminate].
    destruct (split_bytes 2 s) as [[x s1]|] eqn:E1; [|discriminate]. apply split_bytes_spec in E1 as [-> L1].
    destruct (u8_from_hex x) as [vr|] eqn:U1; [|discriminate].
    destruct (split_bytes 2 s1) as [[y s2]|] eqn:E2; [|discriminate]. apply split_bytes_spec in E2 as [-> L2].
    destruct (u8_from_hex y) as [vg|] eqn:U2; [|discriminate].
    destruct (u8_from_hex s2) as [vb|] eqn:U3; [|discriminate]. injection H as <- <- <-.
    rewrite !blen_app in Hl. assert (L3 : blen s2 = 2) by lia.
    destruct (u8_of_two_bytes _ _ L1 U1) as (a1 & a2 & -> & P1). destruct (u8_of_two_bytes _ _ L2 U2) as (b1 & b2 & -> & P2).
    destruct (u8_of_two_bytes _ _ L3 U3) as (c1 & c2 & -> & P3). exists a1, a2, b1, b2, c1, c2. auto.
  - intros (a1 & a2 & b1 & b2 & c1 & c2 & -> & P1 & P2 & P3).
    pose proof (hex_pair_ascii _ _ _ P1) as (A1 & A2 & _). pose proof (hex_pair_ascii _ _ _ P2) as (B1 & B2 & _).
    pose proof (hex_pair_ascii _ _ _ P3) as (C1 & C2 & _).
    assert (L : forall x y t, x < 128 -> y < 128 -> split_bytes 2 (x :: y :: t) = Some ([x; y], t)).
    { intros x y t Hx Hy. change (x :: y :: t) with ([x; y] ++ t)%list. replace 2 with (blen [x; y]); [apply split_bytes_app|].
      cbn [blen]. rewrite !clen_ascii by assumption. reflexivity. }
    assert (Hl : blen [a1; a2; b1; b2; c1; c2] = 6).
    { cbn [blen]. rewrite !clen_ascii by assumption. reflexivity. }
    rewrite Hl. cbn [N.eqb Pos.eqb]. rewrite L by assumption. apply u8_pair in P1, P2, P3. rewrite P1.
    rewrite L by assumption. rewrite P2, P3. reflexivity.
Qed.

(** ** Names *)

Lemma lower_char_iff : forall c d, lower c d <-> lower_char c = d.
Proof.
  intros c d. unfold lower_char, lower.
  destruct (N.leb_spec 65 c); destruct (N.leb_spec c 90); cbn [andb]; destruct (N.eqb_spec c 8490); lia.
Qed.

Lemma dvips_iff : forall s, In s dvips_names <-> dvipsnames_color s <> None.
Proof.
  assert (H1 : forallb (fun n => match dvipsnames_color n with Some _ => true | None => false end) dvips_names = true)
    by (vm_compute; reflexivity).
  assert (H2 : forallb (fun x => existsb (str_eqb (fst x)) dvips_names) dvipsnames_color_table = true)
    by (vm_compute; reflexivity).
  intros s. split.
  - intros H. pose proof (proj1 (forallb_forall _ _) H1 _ H) as H3. cbv beta in H3. destruct (dvipsnames_color s); [discriminate|discriminate H3].
  - intros H. destruct (dvipsnames_color s) as [c|] eqn:E; [|congruence]. apply assoc_str_in in E.
    pose proof (proj1 (forallb_forall _ _) H2 _ E) as H3. apply existsb_exists in H3 as (x & Hx & Ex).
    apply str_eqb_eq in Ex. cbn [fst] in Ex. subst. exact Hx.
Qed.

Lemma css_table : forall n v, In (n, v) css_colors -> assoc_str n primitive_color_table = Some (bytes_of v) /\ blen n <= 20.
Proof.
  assert (H : forallb (fun x => match assoc_str (fst x) primitive_color_table with
      | Some (r, g, b) => let '(r', g', b') := bytes_of (snd x) in (r =? r') && (g =? g') && (b =? b')
      | None => false end && (blen (fst x) <=? 20)) css_colors = true) by (vm_compute; reflexivity).
  intros n v Hi. pose proof (proj1 (forallb_forall _ _) H _ Hi) as H1. cbn [fst snd] in H1.
  apply andb_prop in H1 as [H1 H2]. apply N.leb_le in H2. split; [|exact H2].
  destruct (assoc_str n primitive_color_table) as [[[r g] b]|]; [|discriminate].
  destruct (bytes_of v) as [[r' g'] b']. apply andb_prop in H1 as [H1 H3]. apply andb_prop in H1 as [H0 H1].
  apply N.eqb_eq in H0, H1, H3. congruence.
Qed.

Lemma css_table_only : forall n c, assoc_str n primitive_color_table = Some c -> In n (map fst css_colors).
Proof.
  assert (H : forallb (fun x => existsb (str_eqb (fst x)) (map fst css_colors)) primitive_color_table = true)
    by (vm_compute; reflexivity).
  intros n c E. apply assoc_str_in in E. pose proof (proj1 (forallb_forall _ _) H _ E) as H1.
  apply existsb_exists in H1 as (x & Hx & Ex). apply str_eqb_eq in Ex. cbn [fst] in Ex. subst. exact Hx.
Qed.

Lemma lower_map : forall s n, Forall2 lower s n <-> map lower_char s = n.
Proof.
  induction s as [|c s IH]; intros n; cbn [map].
  - split; [intros H; inversion H; reflexivity|intros <-; constructor].
  - split.
    + intros H. inversion H; subst. f_equal; [apply lower_char_iff; assumption|apply IH; assumption].
    + intros <-. constructor; [apply lower_char_iff; reflexivity|apply IH; reflexivity].
Qed.

(** The letters k of a name. *)
Fixpoint ks (s : str) : N := match s with [] => 0 | c :: s' => (if c =? 107 then 1 else 0) + ks s' end.

Lemma lower_blen : forall s, blen s <= blen (map lower_char s) + 2 * ks (map lower_char s).
Proof.
  induction s as [|c s IH]; [cbn; lia|]. cbn [map blen ks]. unfold lower_char at 1 3.
  destruct (N.leb_spec 65 c); destruct (N.leb_spec c 90); cbn [andb].
  - rewrite !clen_ascii by lia. lia.
  - destruct (N.eqb_spec c 8490) as [->|]; [change (clen 8490) with 3; change (clen 107) with 1; cbn [N.eqb Pos.eqb]; lia|lia].
  - destruct (N.eqb_spec c 8490) as [->|]; lia.
  - destruct (N.eqb_spec c 8490) as [->|]; lia.
Qed.

Lemma css_short : forall n v, In (n, v) css_colors -> blen n + 2 * ks n <= 20.
Proof.
  assert (H : forallb (fun x => blen (fst x) + 2 * ks (fst x) <=? 20) css_colors = true) by (vm_compute; reflexivity).
  intros n v Hi. pose proof (proj1 (forallb_forall _ _) H _ Hi) as H1. apply N.leb_le in H1. exact H1.
Qed.

Lemma css_no_hash : forall n v, In (n, v) css_colors -> hd 0 n <> 35.
Proof.
  assert (H : forallb (fun x => negb (hd 0 (fst x) =? 35)) css_colors = true) by (vm_compute; reflexivity).
  intros n v Hi. pose proof (proj1 (forallb_forall _ _) H _ Hi) as H1. apply negb_true_iff, N.eqb_neq in H1. exact H1.
Qed.

Lemma css_named : forall s n v, ~ In s dvips_names -> Forall2 lower s n -> In (n, v) css_colors ->
  lex_color s = Ok (Some (bytes_of v)).
Proof.
  intros s n v Hd Hl Hi. pose proof (css_table n v Hi) as [Ht Hb]. apply lower_map in Hl.
  unfold lex_color. destruct (strip_char 35 s) as [r|] eqn:E.
  { apply strip_char_some in E. subst s. exfalso. apply (css_no_hash n v Hi). rewrite <- Hl. reflexivity. }
  destruct (dvipsnames_color s) as [c|] eqn:Ed; [exfalso; apply Hd, dvips_iff; congruence|].
  unfold primitive_color. pose proof (lower_blen s) as Hs. rewrite Hl in *. pose proof (css_short n v Hi).
  destruct (N.ltb_spec 20 (blen s)); [lia|]. rewrite Ht. reflexivity.
Qed.

Lemma unknown_named : forall s, (forall r, s <> 35 :: r) -> ~ In s dvips_names ->
  (forall n, Forall2 lower s n -> ~ In n (map fst css_colors)) -> lex_color s = Ok None.
Proof.
  intros s Hs Hd Hc. unfold lex_color. destruct (strip_char 35 s) as [r|] eqn:E; [apply strip_char_some in E; congruence|].
  destruct (dvipsnames_color s) as [c|] eqn:Ed; [exfalso; apply Hd, dvips_iff; congruence|].
  unfold primitive_color. destruct (20 <? blen s); [reflexivity|].
  destruct (assoc_str (map lower_char s) primitive_color_table) as [c|] eqn:Ep; [|reflexivity].
  exfalso. apply (Hc (map lower_char s)); [|eapply css_table_only; exact Ep]. apply lower_map. reflexivity.
Qed.

Lemma dvips_named : forall s v, In (s, v) dvips_colors -> lex_color s = Ok (Some (bytes_of v)).
Proof.
  assert (H : forallb (fun x => match lex_color (fst x) with
    | Ok (Some (r, g, b)) => let '(r', g', b') := bytes_of (snd x) in (r =? r') && (g =? g') && (b =? b') | _ => false end) dvips_colors = true)
    by (vm_compute; reflexivity).
  intros s v Hi. pose proof (proj1 (forallb_forall _ _) H _ Hi) as E. cbv beta in E. cbn [fst snd] in E.
  destruct (lex_color s) as [[[[r g] b]|]| | |]; try discriminate E. destruct (bytes_of v) as [[r' g'] b'].
  apply andb_prop in E as [E E3]. apply andb_prop in E as [E1 E2]. apply N.eqb_eq in E1, E2, E3. subst. reflexivity.
Qed.

Lemma hex_pair_chars : forall a b v, hex_pair a b v ->
  (a = 43 \/ exists x, hex_value a x) /\ (b = 43 \/ exists x, hex_value b x) /\ v < 256.
Proof.
  intros a b v H. pose proof (hex_pair_ascii a b v H) as (_ & _ & Hv).
  destruct H as [(x & y & Hx & Hy & _)|[-> H]]; eauto 10.
Qed.

Lemma hex_color_shape : forall s c, lex_color (35 :: s) = Ok (Some c) ->
  length s = 6%nat /\ Forall (fun x => x = 43 \/ exists v, hex_value x v) s /\ fst (fst c) < 256 /\ snd (fst c) < 256 /\ snd c < 256.
Proof.
  intros s [[r g] b] H. apply hex_color_iff in H as (a1 & a2 & b1 & b2 & c1 & c2 & -> & Ha & Hb & Hc).
  apply hex_pair_chars in Ha, Hb, Hc. cbn [fst snd]. split; [reflexivity|]. split; [|tauto].
  do 6 (apply Forall_cons; [tauto|]). apply Forall_nil.
Qed.
