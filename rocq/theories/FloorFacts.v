(** * FloorFacts: [floor_char_boundary] on UTF-8 text. *)

From Coq Require Import List NArith ZArith Bool Lia.
From Verif Require Import Base Spans SpecNum.
Import ListNotations.
Open Scope N_scope.

Lemma rposition_some : forall f l i, rposition f l = Some i ->
  i < N.of_nat (length l) /\ f (nth (N.to_nat i) l 0) = true /\
  forall j, i < j < N.of_nat (length l) -> f (nth (N.to_nat j) l 0) = false.
Proof.
  intros f. assert (Hnone : forall l, rposition f l = None -> forall j, j < N.of_nat (length l) -> f (nth (N.to_nat j) l 0) = false).
  { induction l as [|b l IH]; cbn [rposition length]; intros H j Hj; [lia|].
    destruct (rposition f l) as [i|]; [discriminate|]. destruct (f b) eqn:Eb; [discriminate|].
    destruct (N.eq_dec j 0) as [->|Hn]; [exact Eb|].
    replace (N.to_nat j) with (S (N.to_nat (j - 1))) by lia. cbn [nth]. apply IH; [reflexivity|lia]. }
  induction l as [|b l IH]; cbn [rposition length]; intros i H; [discriminate|].
  destruct (rposition f l) as [k|] eqn:E.
  - injection H as <-. destruct (IH k eq_refl) as (H1 & H2 & H3). split; [lia|].
    replace (N.to_nat (k + 1)) with (S (N.to_nat k)) by lia. split; [exact H2|]. intros j Hj.
    replace (N.to_nat j) with (S (N.to_nat (j - 1))) by lia. cbn [nth]. apply H3. lia.
  - destruct (f b) eqn:Eb; [|discriminate]. injection H as <-. split; [lia|]. split; [exact Eb|]. intros j Hj.
    replace (N.to_nat j) with (S (N.to_nat (j - 1))) by lia. cbn [nth]. apply Hnone; [exact E|lia].
Qed.

Lemma rposition_none : forall f l j, rposition f l = None -> j < N.of_nat (length l) -> f (nth (N.to_nat j) l 0) = false.
Proof.
  intros f l j. revert j. induction l as [|b l IH]; cbn [rposition length]; intros j H Hj; [lia|].
  destruct (rposition f l) as [i|]; [discriminate|]. destruct (f b) eqn:Eb; [discriminate|].
  destruct (N.eq_dec j 0) as [->|Hn]; [exact Eb|].
  replace (N.to_nat j) with (S (N.to_nat (j - 1))) by lia. cbn [nth]. apply IH; [reflexivity|lia].
Qed.

(** ** The bytes of a character *)

Lemma utf8_char_length : forall c, N.of_nat (length (utf8_char c)) = clen c.
Proof. intros c. unfold utf8_char, clen. repeat destruct (_ <? _); reflexivity. Qed.

Lemma cont_byte : forall x, starts_char (128 + x mod 64) = false.
Proof.
  intros x. unfold starts_char. pose proof (N.mod_lt x 64 ltac:(discriminate)) as H. set (y := x mod 64) in *. clearbody y.
  destruct (N.ltb_spec (128 + y) 128); [lia|]. destruct (N.leb_spec 192 (128 + y)); [lia|]. reflexivity.
Qed.

Lemma lead_byte : forall x, 192 <= x -> starts_char x = true.
Proof. intros x H. unfold starts_char. apply N.leb_le in H. rewrite H. apply orb_true_r. Qed.

Lemma lead_le : forall k x, 192 <= k -> 192 <= k + x.
Proof. intros k x H. generalize dependent x. intros x. lia. Qed.

(** Reading the bytes back. *)
Definition low_bits (b : N) : option N := if (128 <=? b) && (b <? 192) then Some (b - 128) else None.
Fixpoint shift_in (v : N) (l : list N) : option N :=
  match l with
  | [] => Some v
  | b :: l' => match low_bits b with Some x => shift_in (v * 64 + x) l' | None => None end
  end.
Definition decoded (l : list N) : option N :=
  match l with
  | [a] => if a <? 128 then Some a else None
  | [a; _] => if (192 <=? a) && (a <? 224) then shift_in (a - 192) (tl l) else None
  | [a; _; _] => if (224 <=? a) && (a <? 240) then shift_in (a - 224) (tl l) else None
  | [a; _; _; _] => if (240 <=? a) && (a <? 248) then shift_in (a - 240) (tl l) else None
  | _ => None
  end.

Lemma low_byte : forall x, low_bits (128 + x mod 64) = Some (x mod 64).
Proof.
  intros x. unfold low_bits. pose proof (N.mod_upper_bound x 64 ltac:(discriminate)) as H.
  generalize dependent (x mod 64). intros y H.
  assert (E : (128 <=? 128 + y) && (128 + y <? 192) = true) by (apply andb_true_iff; split; [apply N.leb_le|apply N.ltb_lt]; lia).
  rewrite E. f_equal. lia.
Qed.

Local Ltac finish :=
  match goal with D0 : ?c = _, D1 : ?c / 64 = _, D2 : ?c / 4096 = _ |- _ =>
    clear - D0 D1 D2; revert D0 D1 D2; generalize (c mod 64), ((c / 64) mod 64), ((c / 4096) mod 64); generalize (c / 64), (c / 4096), (c / 262144); intros; lia
  end.

Lemma utf8_char_decoded : forall c, c < 0x110000 -> decoded (utf8_char c) = Some c.
Proof.
  intros c Hc. unfold utf8_char.
  pose proof (N.div_mod c 64 ltac:(discriminate)) as D0. pose proof (N.div_mod (c / 64) 64 ltac:(discriminate)) as D1.
  pose proof (N.div_mod (c / 4096) 64 ltac:(discriminate)) as D2.
  assert (E1 : c / 64 / 64 = c / 4096) by (rewrite N.div_div by discriminate; reflexivity).
  assert (E2 : c / 4096 / 64 = c / 262144) by (rewrite N.div_div by discriminate; reflexivity).
  rewrite E1 in D1. rewrite E2 in D2.
  assert (Hin : forall lo hi x, x < hi - lo -> lo <= hi -> (lo <=? lo + x) && (lo + x <? hi) = true).
  { intros lo hi x H1 H2. apply andb_true_iff. split; [apply N.leb_le; lia|apply N.ltb_lt; lia]. }
  destruct (c <? 128) eqn:L1; [cbn [decoded]; rewrite L1; reflexivity|].
  destruct (c <? 2048) eqn:L2.
  { apply N.ltb_lt in L2. cbn [decoded tl shift_in]. rewrite Hin; [|apply N.div_lt_upper_bound; lia|lia]. rewrite low_byte. f_equal. finish. }
  destruct (c <? 65536) eqn:L3.
  { apply N.ltb_lt in L3. cbn [decoded tl shift_in]. rewrite Hin; [|apply N.div_lt_upper_bound; lia|lia]. rewrite !low_byte. f_equal. finish. }
  cbn [decoded tl shift_in]. rewrite Hin; [|apply N.div_lt_upper_bound; lia|lia]. rewrite !low_byte. f_equal. finish.
Qed.

Lemma utf8_char_starts : forall c i, i < clen c ->
  starts_char (nth (N.to_nat i) (utf8_char c) 0) = (i =? 0).
Proof.
  intros c i Hi. unfold utf8_char, clen in *.
  destruct (c <? 128) eqn:E1; [|destruct (c <? 2048) eqn:E2; [|destruct (c <? 65536) eqn:E3]].
  - replace i with 0 by lia. cbn [N.to_nat nth N.eqb]. unfold starts_char. rewrite E1. reflexivity.
  - assert (H : i = 0 \/ i = 1) by lia. destruct H as [-> | ->].
    + cbn [N.to_nat nth N.eqb]. apply lead_byte, lead_le; lia.
    + change (N.to_nat 1) with 1%nat. cbn [nth]. apply cont_byte.
  - assert (H : i = 0 \/ i = 1 \/ i = 2) by lia. destruct H as [-> | [-> | ->]].
    + cbn [N.to_nat nth N.eqb]. apply lead_byte, lead_le; lia.
    + change (N.to_nat 1) with 1%nat. cbn [nth]. apply cont_byte.
    + change (N.to_nat 2) with 2%nat. cbn [nth]. apply cont_byte.
  - assert (H : i = 0 \/ i = 1 \/ i = 2 \/ i = 3) by lia. destruct H as [-> | [-> | [-> | ->]]].
    + cbn [N.to_nat nth N.eqb]. apply lead_byte, lead_le; lia.
    + change (N.to_nat 1) with 1%nat. cbn [nth]. apply cont_byte.
    + change (N.to_nat 2) with 2%nat. cbn [nth]. apply cont_byte.
    + change (N.to_nat 3) with 3%nat. cbn [nth]. apply cont_byte.
Qed.

(** ** Boundaries *)

Lemma utf8_length : forall s, N.of_nat (length (utf8 s)) = blen s.
Proof.
  induction s as [|c s IH]; [reflexivity|]. cbn [utf8 flat_map blen]. fold (utf8 s).
  rewrite app_length, Nat2N.inj_add, utf8_char_length, IH. reflexivity.
Qed.

Lemma boundary_zero : forall s, boundary s 0.
Proof. intros s. exists [], s. split; reflexivity. Qed.

Lemma boundary_cons : forall c s i, boundary (c :: s) i <-> i = 0 \/ (clen c <= i /\ boundary s (i - clen c)).
Proof.
  intros c s i. split.
  - intros (a & b & E & Hl). destruct a as [|x a]; cbn in E; [left; exact (eq_sym Hl)|]. injection E as <- ->.
    cbn [blen] in Hl. right. split; [lia|]. exists a, b. split; [reflexivity|lia].
  - intros [->|[Hc (a & b & -> & Hl)]]; [apply boundary_zero|]. exists (c :: a), b. split; [reflexivity|]. cbn [blen]. lia.
Qed.

Lemma starts_boundary : forall s i, i < blen s ->
  (starts_char (nth (N.to_nat i) (utf8 s) 0) = true <-> boundary s i).
Proof.
  induction s as [|c s IH]; intros i Hi; cbn [blen] in Hi; [lia|]. rewrite boundary_cons.
  cbn [utf8 flat_map]. fold (utf8 s). pose proof (utf8_char_length c) as Hl. pose proof (clen_pos c) as Hp.
  destruct (N.ltb_spec i (clen c)) as [Hlt|Hge].
  - rewrite app_nth1 by lia. rewrite utf8_char_starts by exact Hlt. rewrite N.eqb_eq. intuition lia.
  - rewrite app_nth2 by lia.
    replace (N.to_nat i - length (utf8_char c))%nat with (N.to_nat (i - clen c)) by lia.
    rewrite IH by lia. intuition lia.
Qed.

Lemma boundary_near : forall s i, i < blen s -> exists j, boundary s j /\ j <= i < j + 4.
Proof.
  induction s as [|c s IH]; intros i Hi; cbn [blen] in Hi; [lia|]. pose proof (clen_le4 c).
  destruct (N.ltb_spec i (clen c)) as [Hlt|Hge].
  - exists 0. split; [apply boundary_zero|lia].
  - destruct (IH (i - clen c) ltac:(lia)) as (j & Hj & Hb). exists (clen c + j). split; [|lia].
    apply boundary_cons. right. split; [lia|]. replace (clen c + j - clen c) with j by lia. exact Hj.
Qed.

Lemma boundary_len : forall s, boundary s (blen s).
Proof. intros s. exists s, []. split; [now rewrite app_nil_r|reflexivity]. Qed.

Lemma boundary_le : forall s i, boundary s i -> i <= blen s.
Proof. intros s i (a & b & -> & <-). rewrite blen_app. lia. Qed.

Lemma nth_skipn' : forall {A} (d : A) n l i, nth i (skipn n l) d = nth (n + i) l d.
Proof. intros A d. induction n as [|n IH]; intros l i; [reflexivity|]. destruct l as [|x l]; [destruct i; reflexivity|]. apply IH. Qed.

Lemma nth_firstn' : forall {A} (d : A) n l i, (i < n)%nat -> nth i (firstn n l) d = nth i l d.
Proof.
  intros A d. induction n as [|n IH]; intros l i H; [lia|]. destruct l as [|x l]; [destruct i; reflexivity|].
  destruct i as [|i]; [reflexivity|]. cbn [firstn nth]. apply IH. lia.
Qed.

(** The result is the greatest boundary not above the index. *)
Lemma floor_greatest : forall s index, exists i, floor_char_boundary s index = Some i /\
  boundary s i /\ i <= index /\ forall j, boundary s j -> j <= index -> j <= i.
Proof.
  intros s index. unfold floor_char_boundary. destruct (N.leb_spec (blen s) index) as [Hle|Hlt].
  - exists (blen s). split; [reflexivity|]. split; [apply boundary_len|]. split; [exact Hle|].
    intros j Hj _. apply boundary_le. exact Hj.
  - cbv zeta. set (lower := index - 3). set (w := firstn _ _).
    pose proof (utf8_length s) as Hlen.
    assert (Hw : N.of_nat (length w) = index + 1 - lower).
    { unfold w. rewrite firstn_length, skipn_length. unfold lower. lia. }
    assert (Hnth : forall j, j < index + 1 - lower -> nth (N.to_nat j) w 0 = nth (N.to_nat (lower + j)) (utf8 s) 0).
    { intros j Hj. unfold w. rewrite nth_firstn' by lia. rewrite nth_skipn'. f_equal. lia. }
    destruct (rposition starts_char w) as [i|] eqn:E.
    + apply rposition_some in E as (Hi & Hs & Hrest). rewrite Hw in *. rewrite Hnth in Hs by lia.
      exists (lower + i). split; [reflexivity|]. unfold lower in *. split; [apply starts_boundary; [lia|exact Hs]|].
      split; [lia|]. intros j Hj Hji. destruct (N.leb_spec j (index - 3 + i)) as [|Hgt]; [assumption|].
      specialize (Hrest (j - (index - 3)) ltac:(lia)). rewrite Hnth in Hrest by lia.
      replace (index - 3 + (j - (index - 3))) with j in Hrest by lia.
      apply starts_boundary in Hj; [congruence|lia].
    + exfalso. destruct (boundary_near s index Hlt) as (j & Hj & Hb).
      pose proof (rposition_none _ _ (j - lower) E) as Hn. rewrite Hw in Hn. specialize (Hn ltac:(unfold lower; lia)).
      rewrite Hnth in Hn by (unfold lower; lia). replace (lower + (j - lower)) with j in Hn by (unfold lower; lia).
      apply starts_boundary in Hj; [congruence|lia].
Qed.
