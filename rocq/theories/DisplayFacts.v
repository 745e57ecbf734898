(** * DisplayFacts: the characters of a printed [f32]. *)

From Coq Require Import List NArith ZArith Bool Lia SpecFloat.
From Verif Require Import Base Float32 FloatFacts Event Spans SpecEvent SpecStream.
Import ListNotations.
Open Scope Z_scope.

Lemma shr_1_m : forall r, 0 <= shr_m r -> shr_m (shr_1 r) = shr_m r / 2.
Proof.
  intros [m rr ss] H. cbn [shr_m] in *. destruct m as [|p|p]; cbn; [reflexivity| |lia].
  destruct p as [p|p|]; cbn [shr_m]; try reflexivity.
  - replace (Zpos p~1) with (2 * Zpos p + 1) by lia. rewrite Z.mul_comm. rewrite Z.div_add_l by lia. cbn. lia.
  - replace (Zpos p~0) with (Zpos p * 2) by lia. now rewrite Z.div_mul.
Qed.

Lemma shr_iter_m : forall p r, 0 <= shr_m r -> shr_m (iter_pos shr_1 p r) = shr_m r / 2 ^ Zpos p.
Proof.
  induction p as [p IH|p IH|]; intros r H; cbn [iter_pos].
  - assert (H1 : 0 <= shr_m (shr_1 r)) by (rewrite shr_1_m by exact H; apply Z.div_pos; lia).
    assert (H2 : 0 <= shr_m (iter_pos shr_1 p (shr_1 r))) by (rewrite IH by exact H1; apply Z.div_pos; [exact H1|apply Z.pow_pos_nonneg; lia]).
    rewrite IH, IH, shr_1_m by assumption.
    rewrite !Z.div_div by (try apply Z.pow_nonzero; try apply Z.mul_pos_pos; try apply Z.pow_pos_nonneg; lia). f_equal.
    replace (Zpos p~1) with (1 + Zpos p + Zpos p) by lia. rewrite !Z.pow_add_r by lia. lia.
  - assert (H2 : 0 <= shr_m (iter_pos shr_1 p r)) by (rewrite IH by exact H; apply Z.div_pos; [exact H|apply Z.pow_pos_nonneg; lia]).
    rewrite IH, IH by assumption.
    rewrite !Z.div_div by (try apply Z.pow_nonzero; try apply Z.mul_pos_pos; try apply Z.pow_pos_nonneg; lia). f_equal.
    replace (Zpos p~0) with (Zpos p + Zpos p) by lia. rewrite !Z.pow_add_r by lia. lia.
  - rewrite shr_1_m by exact H. now rewrite Z.pow_1_r.
Qed.

Lemma shr_of_loc_m : forall m l, shr_m (shr_record_of_loc m l) = m.
Proof. intros m [|[]]; reflexivity. Qed.

Lemma shr_fexp_m : forall m e l, 0 <= m ->
  0 <= shr_m (fst (shr_fexp prec32 emax32 m e l)) < 2 ^ 24.
Proof.
  intros m e l H. unfold shr_fexp, shr.
  destruct (Z.eq_dec m 0) as [->|Hn].
  - destruct (fexp _ _ _ - e); cbn [fst]; rewrite ?shr_of_loc_m; try (cbn; lia).
    rewrite shr_iter_m; rewrite shr_of_loc_m; [|lia]. rewrite Z.div_0_l by (apply Z.pow_nonzero; lia). cbn; lia.
  - destruct (dig_spec m ltac:(lia)) as [H1 H2]. fold (dig m).
    assert (Hn' : dig m - 24 <= fexp prec32 emax32 (dig m + e) - e) by (unfold fexp, emin, prec32, emax32; lia).
    set (n := fexp prec32 emax32 (dig m + e) - e) in *. clearbody n.
    destruct n as [|p|p]; cbn [fst]; rewrite ?shr_of_loc_m.
    + split; [lia|]. apply Z.lt_le_trans with (2 ^ dig m); [lia|]. apply Z.pow_le_mono_r; lia.
    + rewrite shr_iter_m; rewrite shr_of_loc_m; [|lia].
      split; [apply Z.div_pos; [lia|apply Z.pow_pos_nonneg; lia]|].
      apply Z.div_lt_upper_bound; [apply Z.pow_pos_nonneg; lia|]. rewrite <- Z.pow_add_r by lia.
      apply Z.lt_le_trans with (2 ^ dig m); [lia|]. apply Z.pow_le_mono_r; lia.
    + split; [lia|]. apply Z.lt_le_trans with (2 ^ dig m); [lia|]. apply Z.pow_le_mono_r; lia.
Qed.

Lemma round_nearest_le : forall m l, m <= round_nearest_even m l <= m + 1.
Proof. intros m [|[]]; cbn; try lia. destruct (Z.even m); lia. Qed.

Lemma round_aux_ok : forall s m e l, 0 <= m -> f32_ok (binary_round_aux prec32 emax32 s m e l).
Proof.
  intros s m e l H. unfold binary_round_aux.
  pose proof (shr_fexp_m m e l H) as H1. destruct (shr_fexp prec32 emax32 m e l) as [r1 e1]. cbn [fst] in H1.
  pose proof (round_nearest_le (shr_m r1) (loc_of_shr_record r1)) as H2.
  set (z := round_nearest_even (shr_m r1) (loc_of_shr_record r1)) in *. clearbody z.
  assert (H0 : 0 <= z) by lia. pose proof (shr_fexp_m z e1 loc_Exact H0) as H3.
  destruct (shr_fexp prec32 emax32 z e1 loc_Exact) as [r2 e2]. cbn [fst] in H3.
  destruct (shr_m r2) as [|p|p] eqn:E; [exact I| |exact I].
  change (emax32 - prec32) with 104. destruct (Z.leb_spec e2 104) as [H4|H4]; [|exact I].
  cbn [f32_ok]. lia.
Qed.

Lemma f32_mul_ok : forall a b, f32_ok (f32_mul a b).
Proof. intros [s|s| |s m e] [t|t| |t n k]; cbn; auto. apply round_aux_ok. lia. Qed.

Lemma f32_div_ok : forall a b, f32_ok (f32_div a b).
Proof.
  intros [s|s| |s m e] [t|t| |t n k]; try exact I. unfold f32_div, SFdiv.
  destruct (SFdiv_core_binary prec32 emax32 (Zpos m) e (Zpos n) k) as [[mz ez] lz] eqn:E.
  apply round_aux_ok. revert E. unfold SFdiv_core_binary.
  match goal with |- context [Z.div_eucl ?a ?b] => set (x := a) end.
  assert (Ha : 0 <= x).
  { unfold x. match goal with |- 0 <= match ?y with _ => _ end => destruct y; try lia end. apply Z.shiftl_nonneg. lia. }
  pose proof (Z_div_mod x (Zpos n) ltac:(lia)) as Hd. destruct (Z.div_eucl x (Zpos n)) as [q r].
  intro E. inversion E; subst. nia.
Qed.

(** ** Digits *)

Definition digits_ok (l : list Z) : Prop := Forall (fun d => 0 <= d <= 9) l.

Lemma find_k_spec : forall fuel incl hi scale k, 0 < hi -> 0 < scale -> - 60 <= k ->
  k + Z.of_nat fuel <= 60 ->
  let k' := find_k fuel incl hi scale k in
  k <= k' <= k + Z.of_nat fuel
  /\ (k' < k + Z.of_nat fuel ->
      let (h, s) := if 0 <=? k' then (hi, scale * 10 ^ k') else (hi * 10 ^ (- k'), scale) in
      h <= s).
Proof.
  induction fuel as [|f IH]; intros incl hi scale k Hh Hs Hk Hf; cbn [find_k].
  - split; [lia|]. intro H. lia.
  - destruct (if 0 <=? k then (hi, scale * 10 ^ k) else (hi * 10 ^ (- k), scale)) as [h s] eqn:E.
    destruct (if incl then s <=? h else s <? h) eqn:C.
    + destruct (IH incl hi scale (k + 1) Hh Hs ltac:(lia) ltac:(lia)) as [H1 H2].
      split; [lia|]. intro H. apply H2. lia.
    + split; [lia|]. intros _. rewrite E. destruct incl; [apply Z.leb_gt in C|apply Z.ltb_ge in C]; lia.
Qed.

Lemma gen_digits_ok : forall fuel incl mant minus plus scale, 0 < scale -> 0 <= mant < 10 * scale ->
  digits_ok (fst (gen_digits fuel incl mant minus plus scale)).
Proof.
  induction fuel as [|f IH]; intros incl mant minus plus scale Hs Hm; cbn [gen_digits]; [constructor|].
  assert (Hd : 0 <= mant / scale <= 9).
  { split; [apply Z.div_pos; lia|]. enough (mant / scale < 10) by lia. apply Z.div_lt_upper_bound; lia. }
  match goal with |- context [if ?b then _ else _] => destruct b end.
  - cbn [fst]. repeat constructor; lia.
  - pose proof (Z.mod_pos_bound mant scale Hs) as Hr.
    specialize (IH incl (10 * (mant mod scale)) (10 * minus) (10 * plus) scale Hs ltac:(lia)).
    destruct (gen_digits f _ _ _ _ _). cbn [fst] in *. constructor; [lia|exact IH].
Qed.

Lemma incr_rev_ok : forall l, digits_ok l -> digits_ok (fst (incr_rev l)).
Proof.
  induction l as [|d l IH]; intro H; cbn [incr_rev]; [constructor|].
  apply Forall_cons_iff in H as [H1 H2]. destruct (Z.eqb_spec d 9).
  - specialize (IH H2). destruct (incr_rev l). cbn [fst] in *. constructor; [lia|exact IH].
  - cbn [fst]. constructor; [lia|exact H2].
Qed.

Lemma digits_rev : forall l, digits_ok l -> digits_ok (rev l).
Proof. intros l H. apply Forall_rev. exact H. Qed.

Lemma shortest_ok : forall m e, Zpos m <= 2 ^ 24 -> e <= 104 -> digits_ok (fst (shortest m e)).
Proof.
  intros m e Hm He. unfold shortest.
  assert (Hpre : exists mant minus plus ex,
    (if Zpos m =? 2 ^ 23 then (4 * Zpos m, 1, 2, e - 2) else (2 * Zpos m, 1, 1, e - 1)) = (mant, minus, plus, ex)
    /\ 0 < mant <= 2 ^ 26 /\ 0 < minus <= 2 /\ 0 < plus <= 2 /\ ex <= 104).
  { destruct (Zpos m =? 2 ^ 23); eexists _, _, _, _; repeat split; try reflexivity; lia. }
  destruct Hpre as (mant & minus & plus & ex & -> & H1 & H2 & H3 & H4).
  assert (Hsc : exists mant' minus' plus' scale,
    (if ex <? 0 then (mant, minus, plus, 2 ^ (- ex)) else (mant * 2 ^ ex, minus * 2 ^ ex, plus * 2 ^ ex, 1))
      = (mant', minus', plus', scale)
    /\ 0 < mant' <= 2 ^ 130 /\ 0 < plus' <= 2 ^ 130 /\ 0 < scale).
  { destruct (Z.ltb_spec ex 0); eexists _, _, _, _; (split; [reflexivity|]).
    - assert (0 < 2 ^ (- ex)) by (apply Z.pow_pos_nonneg; lia).
      assert (2 ^ 26 <= 2 ^ 130) by (apply Z.pow_le_mono_r; lia).
      assert (2 <= 2 ^ 26) by (vm_compute; congruence). lia.
    - assert (Hp : 0 < 2 ^ ex <= 2 ^ 104) by (split; [apply Z.pow_pos_nonneg; lia|apply Z.pow_le_mono_r; lia]).
      assert (E : 2 ^ 130 = 2 ^ 26 * 2 ^ 104) by reflexivity.
      assert (2 <= 2 ^ 26) by (vm_compute; congruence). repeat split; try lia; try nia. }
  destruct Hsc as (mant' & minus' & plus' & scale & -> & H5 & H6 & H7). clear H1 H2 H3 H4.
  set (incl := Z.even (Zpos m)). set (hi := mant' + plus').
  destruct (find_k_spec 120 incl hi scale (-60) ltac:(unfold hi; lia) H7 ltac:(lia) ltac:(cbn; lia)) as [K1 K2].
  set (k := find_k 120 incl hi scale (-60)) in *. clearbody k. change (Z.of_nat 120) with 120 in *.
  assert (Hb : let (h, s) := if 0 <=? k then (hi, scale * 10 ^ k) else (hi * 10 ^ (- k), scale) in h <= s).
  { destruct (Z.eq_dec k 60) as [->|Hn]; [|apply K2; lia].
    cbn [Z.leb Z.compare]. assert (2 ^ 130 + 2 ^ 130 <= 10 ^ 60) by (vm_compute; congruence). unfold hi. nia. }
  clear K2.
  match goal with |- context [gen_digits 20 incl] => idtac end.
  assert (Hg : exists a b c d,
    (if 0 <=? k then (mant', minus', plus', scale * 10 ^ k)
     else (mant' * 10 ^ (- k), minus' * 10 ^ (- k), plus' * 10 ^ (- k), scale)) = (a, b, c, d)
    /\ 0 < d /\ 0 <= a < d).
  { destruct (Z.leb_spec 0 k); eexists _, _, _, _; (split; [reflexivity|]).
    - assert (0 < 10 ^ k) by (apply Z.pow_pos_nonneg; lia). unfold hi in Hb. nia.
    - assert (0 < 10 ^ (- k)) by (apply Z.pow_pos_nonneg; lia). unfold hi in Hb. nia. }
  destruct Hg as (a & b & c & d & -> & H8 & H9).
  pose proof (gen_digits_ok 20 incl (10 * a) (10 * b) (10 * c) d H8 ltac:(lia)) as Hds.
  destruct (gen_digits 20 incl (10 * a) (10 * b) (10 * c) d) as [ds up]. cbn [fst] in Hds.
  destruct up; [|exact Hds].
  pose proof (incr_rev_ok (rev ds) (digits_rev ds Hds)) as Hi. destruct (incr_rev (rev ds)) as [r cc]. cbn [fst] in Hi.
  destruct cc; cbn [fst]; [constructor; [lia|]|]; apply digits_rev; exact Hi.
Qed.

(** The characters a number may be printed with. *)
Definition num_char (c : char) : bool :=
  (is_digit c || is_alpha c || (c =? 45) || (c =? 46))%N.

Lemma digit_char_num : forall d, 0 <= d <= 9 -> num_char (digit_char d) = true.
Proof.
  intros d H. unfold num_char, digit_char. assert (E : is_digit (Z.to_N (48 + d)) = true); [|now rewrite E].
  unfold is_digit. apply andb_true_intro. split; apply N.leb_le; lia.
Qed.

Lemma forallb_firstn : forall A (f : A -> bool) n l, forallb f l = true -> forallb f (firstn n l) = true.
Proof. induction n; intros [|x l] H; cbn in *; auto. apply andb_prop in H as [H1 H2]. rewrite H1, IHn by exact H2. reflexivity. Qed.
Lemma forallb_skipn : forall A (f : A -> bool) n l, forallb f l = true -> forallb f (skipn n l) = true.
Proof. induction n; intros [|x l] H; cbn in *; auto. apply andb_prop in H as [H1 H2]. auto. Qed.
Lemma forallb_repeat : forall A (f : A -> bool) x n, f x = true -> forallb f (repeat x n) = true.
Proof. induction n; intros H; cbn; auto. rewrite H. auto. Qed.

Lemma dec_str_num : forall ds k, digits_ok ds -> forallb num_char (dec_str ds k) = true.
Proof.
  intros ds k H. assert (Hc : forallb num_char (map digit_char ds) = true).
  { induction H; cbn; auto. rewrite digit_char_num by assumption. exact IHForall. }
  unfold dec_str. destruct (k <=? 0); [|destruct (k <? _)]; rewrite ?forallb_app; cbn [forallb].
  - rewrite Hc, (forallb_repeat _ num_char 48%N) by reflexivity. reflexivity.
  - rewrite forallb_firstn, forallb_skipn by exact Hc. reflexivity.
  - rewrite Hc, (forallb_repeat _ num_char 48%N) by reflexivity. reflexivity.
Qed.

Lemma f32_display_num : forall x, f32_ok x -> forallb num_char (f32_display x) = true.
Proof.
  intros [s|s| |s m e] H; try (destruct s; reflexivity); try reflexivity.
  unfold f32_display. destruct H as [H1 H2]. pose proof (shortest_ok m e H1 H2) as Hs.
  destruct (shortest m e) as [ds k]. cbn [fst] in Hs. rewrite forallb_app, dec_str_num by exact Hs.
  destruct s; reflexivity.
Qed.

Lemma dim_display_num : forall d, f32_ok (dvalue d) -> forallb num_char (dim_display d) = true.
Proof.
  intros [v u] H. cbn [dvalue] in H. unfold dim_display. cbn [dvalue dunit].
  destruct u; cbv beta iota; rewrite forallb_app, f32_display_num; try reflexivity; try exact H; apply f32_mul_ok.
Qed.

Lemma n_dec_num : forall n, forallb num_char (n_dec n) = true.
Proof.
  intro n. unfold n_dec. generalize 20%nat as f. intro f. revert n.
  induction f as [|f IH]; intro n; cbn [n_dec_fuel]; [reflexivity|].
  assert (D : forall x, (x < 10)%N -> num_char (48 + x) = true).
  { intros x Hx. unfold num_char. assert (E : is_digit (48 + x) = true); [|now rewrite E].
    unfold is_digit. apply andb_true_intro. split; apply N.leb_le; lia. }
  destruct (N.ltb_spec n 10).
  - cbn [forallb]. now rewrite D.
  - rewrite forallb_app, IH. cbn [forallb]. rewrite D; [reflexivity|]. apply N.mod_lt. lia.
Qed.
