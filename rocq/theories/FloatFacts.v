(** * FloatFacts: [f32] arithmetic is exact on integers below 2^24. *)

From Coq Require Import List NArith ZArith Bool Lia Floats.SpecFloat.
From Verif Require Import Base Float32.
Import ListNotations.
Open Scope Z_scope.

(** ** The number of binary digits *)

Lemma digits2_spec : forall p, 2 ^ (Zpos (digits2_pos p) - 1) <= Zpos p < 2 ^ Zpos (digits2_pos p).
Proof.
  induction p as [p IH|p IH|]; cbn [digits2_pos]; [| |cbn; lia].
  - rewrite Pos2Z.inj_succ. set (d := Zpos (digits2_pos p)) in *. assert (1 <= d) by (unfold d; lia). clearbody d.
    replace (Z.succ d - 1) with (Z.succ (d - 1)) by lia. rewrite !Z.pow_succ_r by lia. lia.
  - rewrite Pos2Z.inj_succ. set (d := Zpos (digits2_pos p)) in *. assert (1 <= d) by (unfold d; lia). clearbody d.
    replace (Z.succ d - 1) with (Z.succ (d - 1)) by lia. rewrite !Z.pow_succ_r by lia. lia.
Qed.

Definition dig (z : Z) : Z := Zdigits2 z.

Lemma dig_spec : forall z, 0 < z -> 1 <= dig z /\ 2 ^ (dig z - 1) <= z < 2 ^ dig z.
Proof. intros [|p|p] H; try lia. unfold dig, Zdigits2. split; [lia|apply digits2_spec]. Qed.

Lemma pow_lt : forall a b, 0 <= b -> 2 ^ a < 2 ^ b -> a < b.
Proof. intros a b Hb H. apply Z.pow_lt_mono_r_iff in H; lia. Qed.

Lemma dig_unique : forall z d, 0 < z -> 1 <= d -> 2 ^ (d - 1) <= z < 2 ^ d -> dig z = d.
Proof.
  intros z d Hz Hd H. destruct (dig_spec z Hz) as [H1 H2].
  assert (dig z - 1 < d) by (apply pow_lt; lia). assert (d - 1 < dig z) by (apply pow_lt; lia). lia.
Qed.

Lemma dig_shift : forall z k, 0 < z -> 0 <= k -> dig (z * 2 ^ k) = dig z + k.
Proof.
  intros z k Hz Hk. destruct (dig_spec z Hz) as [H1 H2].
  assert (Hp : 0 < 2 ^ k) by (apply Z.pow_pos_nonneg; lia).
  apply dig_unique; [nia|lia|]. replace (dig z + k - 1) with ((dig z - 1) + k) by lia.
  rewrite !Z.pow_add_r by lia. split; [nia|]. apply Z.mul_lt_mono_pos_r; lia.
Qed.

Lemma dig_mono : forall a b, 0 < a -> a <= b -> dig a <= dig b.
Proof.
  intros a b Ha Hb. destruct (dig_spec a Ha) as [H1 H2]. destruct (dig_spec b ltac:(lia)) as [H3 H4].
  assert (dig a - 1 < dig b) by (apply pow_lt; lia). lia.
Qed.

Lemma dig_mul : forall a b, 0 < a -> 0 < b -> dig a + dig b - 1 <= dig (a * b).
Proof.
  intros a b Ha Hb. destruct (dig_spec a Ha) as [H1 H2]. destruct (dig_spec b Hb) as [H3 H4].
  destruct (dig_spec (a * b) ltac:(nia)) as [H5 H6].
  assert (dig a - 1 + (dig b - 1) < dig (a * b)); [|lia].
  apply pow_lt; [lia|]. rewrite Z.pow_add_r by lia.
  assert (0 < 2 ^ (dig a - 1)) by (apply Z.pow_pos_nonneg; lia).
  assert (0 < 2 ^ (dig b - 1)) by (apply Z.pow_pos_nonneg; lia). nia.
Qed.

Lemma dig_24 : forall z, 0 < z < 2 ^ 24 -> 1 <= dig z <= 24.
Proof.
  intros z Hz. destruct (dig_spec z ltac:(lia)) as [H1 H2]. split; [exact H1|].
  assert (dig z - 1 < 24) by (apply pow_lt; lia). lia.
Qed.

(** ** Shifting exact values *)

Lemma shr_1_even : forall k, 0 < k -> shr_1 (Build_shr_record (2 * k) false false) = Build_shr_record k false false.
Proof. intros [|p|p] H; try lia. reflexivity. Qed.

Lemma shr_iter : forall p k, 0 < k ->
  iter_pos shr_1 p (Build_shr_record (k * 2 ^ Zpos p) false false) = Build_shr_record k false false.
Proof.
  induction p as [p IH|p IH|]; intros k Hk; cbn [iter_pos].
  - assert (Hp : 0 < 2 ^ Zpos p) by (apply Z.pow_pos_nonneg; lia).
    replace (k * 2 ^ Zpos p~1) with (2 * (k * 2 ^ Zpos p * 2 ^ Zpos p)).
    + rewrite shr_1_even by nia. rewrite IH by nia. apply IH. exact Hk.
    + rewrite (Pos2Z.inj_xI p). replace (2 * Zpos p + 1) with (1 + Zpos p + Zpos p) by lia.
      rewrite !Z.pow_add_r by lia. change (2 ^ 1) with 2. ring.
  - assert (Hp : 0 < 2 ^ Zpos p) by (apply Z.pow_pos_nonneg; lia).
    replace (k * 2 ^ Zpos p~0) with (k * 2 ^ Zpos p * 2 ^ Zpos p).
    + rewrite IH by nia. apply IH. exact Hk.
    + rewrite (Pos2Z.inj_xO p). replace (2 * Zpos p) with (Zpos p + Zpos p) by lia. rewrite Z.pow_add_r by lia. ring.
  - change (2 ^ 1) with 2. rewrite Z.mul_comm. apply shr_1_even. exact Hk.
Qed.

(** The integer [z], with sign [s]. *)
Definition fint (s : bool) (z : Z) : f32 := S754_finite s (Z.to_pos (z * 2 ^ (24 - dig z))) (dig z - 24).

Lemma fexp32 : forall d, 1 <= d -> fexp prec32 emax32 d = d - 24.
Proof. intros d Hd. unfold fexp, emin, prec32, emax32. lia. Qed.

Lemma shift_24 : forall z, 0 < z < 2 ^ 24 -> 0 < z * 2 ^ (24 - dig z) /\ dig (z * 2 ^ (24 - dig z)) = 24.
Proof.
  intros z Hz. pose proof (dig_24 z Hz) as Hd. assert (Hp : 0 < 2 ^ (24 - dig z)) by (apply Z.pow_pos_nonneg; lia).
  split; [nia|]. rewrite dig_shift by lia. lia.
Qed.

Lemma shr_exact : forall m e z, 0 < z < 2 ^ 24 -> e <= dig z - 24 -> m = z * 2 ^ (- e) ->
  shr_fexp prec32 emax32 m e loc_Exact = (Build_shr_record (z * 2 ^ (24 - dig z)) false false, dig z - 24).
Proof.
  intros m e z Hz He Hm. pose proof (dig_24 z Hz) as Hd. unfold shr_fexp. fold (dig m).
  assert (Edm : dig m + e = dig z) by (rewrite Hm, dig_shift by lia; lia).
  rewrite Edm, fexp32 by lia. cbn [shr_record_of_loc].
  destruct (dig z - 24 - e) as [|n|n] eqn:En; [| |lia].
  - cbn [shr]. f_equal; [|lia]. f_equal. rewrite Hm. f_equal. f_equal. lia.
  - unfold shr. replace m with (z * 2 ^ (24 - dig z) * 2 ^ Zpos n).
    + rewrite shr_iter by apply (shift_24 z Hz). f_equal. lia.
    + rewrite Hm, <- Z.mul_assoc, <- Z.pow_add_r by lia. f_equal. f_equal. lia.
Qed.

Lemma round_exact : forall s m e z, 0 < z < 2 ^ 24 -> e <= dig z - 24 -> m = z * 2 ^ (- e) ->
  binary_round_aux prec32 emax32 s m e loc_Exact = fint s z.
Proof.
  intros s m e z Hz He Hm. pose proof (dig_24 z Hz) as Hd. pose proof (shift_24 z Hz) as [Hp Hs]. unfold binary_round_aux.
  rewrite (shr_exact m e z Hz He Hm). cbn [loc_of_shr_record shr_m round_nearest_even].
  rewrite (shr_exact _ (dig z - 24) z Hz); [|lia|f_equal; f_equal; lia]. cbn [shr_m]. unfold fint.
  destruct (z * 2 ^ (24 - dig z)) as [|p|p] eqn:E; try lia. cbn [Z.to_pos].
  destruct (Zle_bool (dig z - 24) (emax32 - prec32)) eqn:El; [reflexivity|].
  apply Z.leb_gt in El. unfold emax32, prec32 in El. lia.
Qed.

Lemma shift_pos_mul : forall d m, Zpos (shift_pos d m) = Zpos m * 2 ^ Zpos d.
Proof. intros d m. rewrite shift_pos_correct. rewrite Zpower_pos_nat, Zpower_nat_Z. rewrite positive_nat_Z. ring. Qed.

Lemma binary_round_exact : forall s m e z, 0 < z < 2 ^ 24 ->
  (e <= dig z - 24 /\ Zpos m = z * 2 ^ (- e)) \/ (0 <= e /\ z = Zpos m * 2 ^ e) ->
  binary_round prec32 emax32 s m e = fint s z.
Proof.
  intros s m e z Hz H. pose proof (dig_24 z Hz) as Hd. unfold binary_round. fold (dig (Zpos m)).
  change (Zpos (digits2_pos m)) with (dig (Zpos m)).
  assert (Edm : dig (Zpos m) + e = dig z).
  { destruct H as [[He Hm]|[He Hm]].
    - rewrite Hm, dig_shift by lia. lia.
    - rewrite Hm, dig_shift by lia. lia. }
  rewrite Edm, fexp32 by lia. unfold shl_align.
  destruct (dig z - 24 - e) as [|n|n] eqn:En.
  - destruct H as [[He Hm]|[He Hm]]; [apply round_exact; auto; lia|].
    assert (e = 0) by lia. subst e. apply round_exact; [exact Hz|lia|]. rewrite Hm. cbn. lia.
  - destruct H as [[He Hm]|[He Hm]]; [apply round_exact; auto; lia|lia].
  - destruct H as [[He Hm]|[He Hm]]; [lia|]. apply round_exact; [exact Hz|lia|].
    rewrite shift_pos_mul. replace (Zpos n) with (e + - (dig z - 24)) by lia. rewrite Z.pow_add_r, Z.mul_assoc, <- Hm by lia. reflexivity.
Qed.

Lemma of_Z_exact : forall z, 0 < z < 2 ^ 24 -> f32_of_Z z = fint false z.
Proof.
  intros z Hz. unfold f32_of_Z. destruct z as [|p|p]; try lia. cbn [binary_normalize].
  apply binary_round_exact; [exact Hz|]. right. split; [lia|]. cbn. lia.
Qed.

Lemma of_Z_neg : forall z, 0 < z < 2 ^ 24 -> f32_of_Z (- z) = fint true z.
Proof.
  intros z Hz. unfold f32_of_Z. destruct z as [|p|p]; try lia. cbn [Z.opp binary_normalize].
  apply binary_round_exact; [exact Hz|]. right. split; [lia|]. cbn. lia.
Qed.

Lemma mul_exact : forall s t a b, 0 < a -> 0 < b -> a * b < 2 ^ 24 ->
  f32_mul (fint s a) (fint t b) = fint (xorb s t) (a * b).
Proof.
  intros s t a b Ha Hb Hab. assert (Ha' : 0 < a < 2 ^ 24) by nia. assert (Hb' : 0 < b < 2 ^ 24) by nia.
  pose proof (dig_24 a Ha') as Hda. pose proof (dig_24 b Hb') as Hdb. pose proof (dig_mul a b Ha Hb) as Hd.
  pose proof (shift_24 a Ha') as [Hpa _]. pose proof (shift_24 b Hb') as [Hpb _].
  unfold f32_mul, fint at 1 2, SFmul. apply round_exact; [nia|lia|].
  rewrite Pos2Z.inj_mul, !Z2Pos.id by assumption.
  replace (- (dig a - 24 + (dig b - 24))) with ((24 - dig a) + (24 - dig b)) by lia. rewrite Z.pow_add_r by lia. ring.
Qed.

Lemma shl_align_int : forall a ez, 0 < a < 2 ^ 24 -> ez <= dig a - 24 ->
  Zpos (fst (shl_align (Z.to_pos (a * 2 ^ (24 - dig a))) (dig a - 24) ez)) = a * 2 ^ (- ez).
Proof.
  intros a ez Ha He. pose proof (dig_24 a Ha) as Hda. pose proof (shift_24 a Ha) as [Hpa _].
  unfold shl_align. destruct (ez - (dig a - 24)) as [|n|n] eqn:En; cbn [fst].
  - rewrite Z2Pos.id by exact Hpa. f_equal. f_equal. lia.
  - lia.
  - rewrite shift_pos_mul, Z2Pos.id by exact Hpa. rewrite <- Z.mul_assoc, <- Z.pow_add_r by lia. f_equal. f_equal. lia.
Qed.

Lemma add_exact : forall a b, 0 < a -> 0 < b -> a + b < 2 ^ 24 ->
  f32_add (fint false a) (fint false b) = fint false (a + b).
Proof.
  intros a b Ha Hb Hab. assert (Ha' : 0 < a < 2 ^ 24) by lia. assert (Hb' : 0 < b < 2 ^ 24) by lia.
  pose proof (dig_24 a Ha') as Hda. pose proof (dig_24 b Hb') as Hdb.
  pose proof (dig_mono a (a + b) Ha ltac:(lia)) as Hma. pose proof (dig_mono b (a + b) Hb ltac:(lia)) as Hmb.
  unfold f32_add, fint at 1 2, SFadd. cbn [cond_Zopp].
  set (ez := Z.min (dig a - 24) (dig b - 24)).
  rewrite !shl_align_int by (assumption || (unfold ez; lia)).
  rewrite <- Z.mul_add_distr_r. assert (Hp : 0 < 2 ^ (- ez)) by (apply Z.pow_pos_nonneg; unfold ez; lia).
  destruct ((a + b) * 2 ^ (- ez)) as [|p|p] eqn:E; try nia. cbn [binary_normalize].
  apply binary_round_exact; [lia|]. left. split; [unfold ez; lia|]. exact (eq_sym E).
Qed.

(** Multiplying by the sign. *)
Lemma sign_exact : forall (neg : bool) z, 0 <= z < 2 ^ 24 ->
  f32_mul (f32_of_Z (if neg then -1 else 1)) (f32_of_Z z) =
  if neg then (if z =? 0 then S754_zero true else f32_of_Z (- z)) else f32_of_Z z.
Proof.
  intros neg z Hz. destruct (Z.eqb_spec z 0) as [->|Hn].
  - destruct neg; reflexivity.
  - rewrite (of_Z_exact z) by lia. destruct neg.
    + rewrite (of_Z_neg z) by lia. change (-1) with (- (1)). rewrite of_Z_neg by lia. rewrite mul_exact by lia. f_equal. lia.
    + rewrite of_Z_exact by lia. rewrite mul_exact by lia. f_equal. lia.
Qed.

(** Appending a digit. *)
Lemma digit_exact : forall z d, 0 <= z -> 0 <= d <= 9 -> 10 * z + d < 2 ^ 24 ->
  f32_add (f32_mul (f32_of_Z z) (f32_of_Z 10)) (f32_of_Z d) = f32_of_Z (10 * z + d).
Proof.
  intros z d Hz Hd H. destruct (Z.eq_dec z 0) as [->|Hn].
  - cbn [Z.mul Z.add]. destruct (Z.eq_dec d 0) as [->|Hd0]; [reflexivity|].
    rewrite (of_Z_exact d) by lia. unfold fint. reflexivity.
  - rewrite (of_Z_exact z), (of_Z_exact 10), mul_exact by lia. replace (z * 10) with (10 * z) by lia. cbn [xorb].
    destruct (Z.eq_dec d 0) as [->|Hd0].
    + rewrite Z.add_0_r. rewrite (of_Z_exact (10 * z)) by lia. reflexivity.
    + rewrite (of_Z_exact d), add_exact by lia. rewrite of_Z_exact by lia. reflexivity.
Qed.
